(** Optimality of the single-task search with a consistent heuristic. *)
From Coq Require Import ZifyBool ZifyNat Permutation.
From Verif Require Import Common CyclicVec CyclicVecSpec CyclicVecProofs GridMapSpec GridMapProofs
  CostAlg AStar AStarSpec AStarProofs AStarSearch AStarTerm AStarComplete.
Local Open Scope Z_scope.

(** [open_.top()] is an element of least priority (std::push_heap/pop_heap). *)
Definition min_pick {F} (K : cost_ops F) (O : @oracle F) : Prop :=
  forall loop open en rest, take_at (o_pick O loop open) open = Some (en, rest) ->
    forall en', In en' open -> fltb K (en_p en') (en_p en) = false.

Section Opt.
  Context {F : Type} (K : cost_ops F) (L : cost_laws K) (X : exact_laws K) (nc : nat) (size : vec) (M : @smodel F).
  Variables (ssn : list (vec * F)) (e : vec).
  Hypothesis Hnc : (nc <= length size)%nat.
  Hypothesis Hsz : Forall (fun s => 0 < s <= 2 ^ 30) size.
  Hypothesis Hmod : forall p ss e d, In d (m_searchGrids M p ss e) ->
       length d = length size /\ Forall (fun x => Z.abs x <= 2 ^ 30) d.
  Notation Mv := (move K nc size M ssn e).
  Notation Route := (route K nc size M ssn e).
  Notation Cost := (route_cost K M ssn e).
  Notation reached := (reached ssn).
  Notation isS := (isS ssn).
  Notation le a b := (fleb K a b = true).
  Notation lt a b := (fltb K a b = true).
  Notation "a +f b" := (fadd K a b) (at level 50, left associativity).
  Notation h x := (m_costEstim M x e).
  Notation co p n := (m_cost M p n ssn e).

  Hypothesis Hcons : forall p n, valid size p -> Mv p n -> le (h p) (co p n +f h n).
  Hypothesis Hstart0 : forall s c, In (s, c) ssn -> le (fzero K) c /\ finite K c.
  Hypothesis Hstart : forall s c, In (s, c) ssn -> forall s' c' l, Route s' c' s l -> le c (Cost c' l).

  Definition opt (x : vec) (c : F) : Prop := forall s c0 l, Route s c0 x l -> le c (Cost c0 l).
  Definition real (x : vec) (c : F) : Prop := exists s c0 l, Route s c0 x l /\ Cost c0 l = c.

  (** *** Arithmetic helpers *)
  Lemma le_refl a : le a a.
  Proof. apply (ex_total _ X). apply (lw_lt_irrefl _ L). Qed.
  Lemma le_tr a b c : le a b -> le b c -> le a c.
  Proof. apply (lw_le_trans _ L). Qed.
  Lemma add_mono_r a b c : le a b -> le (a +f c) (b +f c).
  Proof. apply (ex_add_mono _ X). Qed.
  Lemma add_mono_l a b c : le b c -> le (a +f b) (a +f c).
  Proof. intros H. rewrite !(ex_add_comm _ X a). apply add_mono_r. exact H. Qed.
  Lemma adm_nonneg a : admissible_value K a -> le (fzero K) a.
  Proof. intros [H _]. apply (ex_total _ X). exact H. Qed.
  Lemma add_nonneg a b : le (fzero K) b -> le a (a +f b).
  Proof.
    intros H. apply (le_tr _ (a +f fzero K)); [rewrite (ex_add_zero _ X); apply le_refl|].
    apply add_mono_l. exact H.
  Qed.
  Lemma le_lt_false a b : le a b -> fltb K b a = false.
  Proof. apply (ex_antisym _ X). Qed.
  Lemma neg1_lt a : le (fzero K) a -> fltb K a (fneg1 K) = false.
  Proof. intros H. apply not_lt_neg1; auto. Qed.
  Lemma neg1_not_le a : le (fzero K) a -> ~ le a (fneg1 K).
  Proof.
    intros H H1. pose proof (le_tr _ _ _ H H1) as H2. pose proof (lw_neg1 _ L) as H3.
    rewrite (le_lt_false _ _ H2) in H3. discriminate.
  Qed.

  (** *** Routes *)
  Lemma last_app_one {A} (l : list A) x d : last (l ++ [x]) d = x.
  Proof using Type. clear. induction l as [|a l IH]; [reflexivity|]. destruct l; [reflexivity|exact IH]. Qed.

  Lemma cost_app : forall l c a b d, last (a :: l) d = b -> forall n,
    Cost c ((a :: l) ++ [n]) = Cost c (a :: l) +f co b n.
  Proof using Type.
    clear. induction l as [|x l IH]; intros c a b d E n.
    - simpl in E. subst. reflexivity.
    - change (last (x :: l) d = b) in E. cbn [app route_cost]. apply (IH _ x b d E n).
  Qed.

  Lemma linked_snoc (R : vec -> vec -> Prop) : forall l a b d, linked R (a :: l) -> last (a :: l) d = b ->
    forall n, R b n -> linked R ((a :: l) ++ [n]).
  Proof using Type.
    clear. induction l as [|x l IH]; intros a b d HL E n HR.
    - simpl in *. subst. auto.
    - destruct HL as [H1 H2]. change (last (x :: l) d = b) in E. split; [exact H1|].
      apply (IH x b d H2 E n HR).
  Qed.

  Lemma route_snoc s c p l n : Route s c p l -> Mv p n ->
    Route s c n (l ++ [n]) /\ Cost c (l ++ [n]) = Cost c l +f co p n.
  Proof using Type.
    clear. intros (HI & Hh & Hl & HL) HM. destruct l as [|a l]; [discriminate|]. injection Hh as ->. split.
    - split; [exact HI|]. split; [reflexivity|]. split; [apply last_app_one|].
      eapply linked_snoc; eauto.
    - eapply cost_app; eauto.
  Qed.

  Lemma real_step p c n : real p c -> Mv p n -> real n (c +f co p n).
  Proof using Type.
    clear. intros (s & c0 & l & HR & <-) HM. destruct (route_snoc _ _ _ _ _ HR HM) as [H1 H2].
    exists s, c0, (l ++ [n]). auto.
  Qed.

  Lemma cost_bounds : forall l a c, linked Mv (a :: l) -> le (fzero K) c -> finite K c ->
    le (fzero K) (Cost c (a :: l)) /\ finite K (Cost c (a :: l)).
  Proof.
    induction l as [|b l IH]; intros a c HL H0 Hf; [simpl; auto|].
    destruct HL as [HM HL]. cbn [route_cost]. apply IH; [exact HL| |].
    - eapply le_tr; [exact H0|]. apply add_nonneg. apply adm_nonneg. apply HM.
    - apply (ex_add_fin _ X); [exact Hf|]. apply (admissible_finite K X). apply HM.
  Qed.
  Lemma real_bounds x c : real x c -> le (fzero K) c /\ finite K c.
  Proof.
    intros (s & c0 & l & (HI & Hh & _ & HL) & <-). destruct l as [|a l]; [discriminate|].
    destruct (Hstart0 _ _ HI). apply cost_bounds; auto.
  Qed.

  (** The heuristic telescopes along a route. *)
  Lemma consistent_along : forall l a c d, valid size a -> linked Mv (a :: l) ->
    le (c +f h a) (Cost c (a :: l) +f h (last (a :: l) d)).
  Proof.
    induction l as [|b l IH]; intros a c d Va HL; [apply le_refl|].
    destruct HL as [HM HL]. cbn [route_cost]. change (last (a :: b :: l) d) with (last (b :: l) d).
    eapply le_tr; [|apply IH; [apply HM|exact HL]]. rewrite (ex_add_assoc _ X). apply add_mono_l. apply Hcons; [exact Va|exact HM].
  Qed.

  (** *** The invariant *)
  Definition osettled (gr : vec -> F) (par : list (vec * vec)) (x : vec) : Prop :=
    forall n, Mv x n -> reached par n /\ le (gr n) (gr x +f co x n).
  Definition olive (gr : vec -> F) (s : @sstate F) (x : vec) : Prop :=
    st_g s x = gr x /\
    exists en, In en (st_open s) /\ en_v en = x /\ en_raw en = gr x /\ le (en_p en) (gr x +f h x).

  Definition oentry (gr : vec -> F) (par : list (vec * vec)) (en : @entry F) : Prop :=
    reached par (en_v en) /\ valid size (en_v en) /\ le (gr (en_v en)) (en_raw en) /\ real (en_v en) (en_raw en) /\
    ((In (en_v en, en_raw en) ssn /\ exists ce, en_p en = ce +f en_raw en /\ fltb K ce (fzero K) = false) \/
     (en_p en = en_raw en +f h (en_v en) /\ admissible_value K (h (en_v en)))).

  Record OInv (P : vec -> Prop) (gr : vec -> F) (s : @sstate F) : Prop := mkOInv {
    oi_real : forall x, reached (st_parents s) x -> real x (gr x);
    oi_g : forall x, reached (st_parents s) x -> st_g s x = gr x \/
        (st_g s x = fneg1 K /\ opt x (gr x) /\ osettled gr (st_parents s) x);
    oi_live : forall x, reached (st_parents s) x -> P x \/ osettled gr (st_parents s) x \/ olive gr s x;
    oi_open : forall en, In en (st_open s) -> oentry gr (st_parents s) en;
    oi_par : forall p q, ~ isS p -> lookup p (st_parents s) = Some q ->
        reached (st_parents s) q /\ le (gr q +f co q p) (gr p);
    oi_unreached : forall x, ~ reached (st_parents s) x -> st_g s x = fmax K;
    oi_start : forall x, isS x -> In (x, gr x) ssn
  }.

  (** Somewhere on any route there is an open entry that is not too expensive,
      or the last cell's label is already at most the route's cost. *)
  Lemma frontier gr s : OInv (fun _ => False) gr s -> forall l a c d,
    linked Mv (a :: l) -> reached (st_parents s) a -> le (gr a) c ->
    le (gr (last (a :: l) d)) (Cost c (a :: l)) \/
    exists en, In en (st_open s) /\ le (en_p en) (Cost c (a :: l) +f h (last (a :: l) d)).
  Proof.
    intros HO. induction l as [|b l IH]; intros a c d HL Hr Hle; [left; exact Hle|].
    destruct (oi_live _ _ _ HO a Hr) as [[]|[Hset|(_ & en & E1 & E2 & E3 & E4)]].
    - destruct HL as [HM HL]. destruct (Hset b HM) as [Hb Hgb].
      change (last (a :: b :: l) d) with (last (b :: l) d). cbn [route_cost].
      apply IH; auto. eapply le_tr; [exact Hgb|]. apply add_mono_r. exact Hle.
    - right. exists en. split; [exact E1|]. eapply le_tr; [exact E4|].
      eapply le_tr; [apply add_mono_r; exact Hle|]. apply consistent_along; [|exact HL].
      destruct (oi_open _ _ _ HO en E1) as (_ & V & _). rewrite E2 in V. exact V.
  Qed.

  Lemma popped_optimal gr s en : OInv (fun _ => False) gr s -> In en (st_open s) ->
    (forall en', In en' (st_open s) -> fltb K (en_p en') (en_p en) = false) ->
    opt (en_v en) (gr (en_v en)).
  Proof.
    intros HO HI Hmin s0 c0 l (Hs & Hh & Hl & HL).
    destruct l as [|a l]; [discriminate|]. injection Hh as ->.
    destruct (oi_open _ _ _ HO en HI) as (Hr & Hv & Hle & Hreal & Hk).
    assert (Hs0 : reached (st_parents s) s0) by (left; exists c0; exact Hs).
    assert (Hgs : le (gr s0) c0).
    { assert (HSS : isS s0) by (exists c0; exact Hs).
      pose proof (oi_start _ _ _ HO s0 HSS) as Hin.
      assert (HR : Route s0 c0 s0 [s0]) by (split; [exact Hs|]; repeat split).
      pose proof (Hstart _ _ Hin _ _ _ HR) as H1. exact H1. }
    destruct (frontier gr s HO l s0 c0 s0 HL Hs0 Hgs) as [H|(en' & E1 & E2)].
    - rewrite Hl in H. exact H.
    - rewrite Hl in E2.
      assert (H1 : le (en_p en) (Cost c0 (s0 :: l) +f h (en_v en))).
      { eapply le_tr; [|exact E2]. apply (ex_total _ X). apply Hmin. exact E1. }
      destruct Hk as [[Hin _]|[Hp Hadm]].
      + eapply le_tr; [exact Hle|]. eapply Hstart; [exact Hin|]. split; [exact Hs|]. split; [reflexivity|]. split; [exact Hl|exact HL].
      + rewrite Hp in H1. eapply le_tr; [exact Hle|].
        eapply (ex_add_cancel _ X); [|exact H1]. apply (admissible_finite K X). exact Hadm.
  Qed.

  (** Applying one improvement found from [x] (label [c]). *)
  Definition from_x (x : vec) (c : F) (u : update) : Prop :=
    exists n, Mv x n /\ u = upd_of K M ssn e x c n.

  Lemma osettled_mono gr gr' par par' y :
    (forall q, reached par q -> reached par' q) -> (forall q, reached par q -> le (gr' q) (gr q)) ->
    gr' y = gr y -> osettled gr par y -> osettled gr' par' y.
  Proof.
    intros H1 H2 Ey HS n HM. destruct (HS n HM) as [A B]. split; [auto|]. rewrite Ey.
    eapply le_tr; [apply H2; exact A|exact B].
  Qed.

  Lemma apply_update_o O loop gr s x c u :
    OInv (fun y => y = x) gr s -> reached (st_parents s) x -> valid size x -> real x c ->
    st_g s x = gr x -> le (gr x) c -> le c (gr x) -> from_x x c u ->
    let s' := apply_update K O loop 0 s u in
    exists gr', OInv (fun y => y = x) gr' s' /\ gr' x = gr x /\ st_g s' x = gr x /\
      (forall q, reached (st_parents s) q -> reached (st_parents s') q) /\
      (forall q, reached (st_parents s) q -> le (gr' q) (gr q)) /\
      reached (st_parents s') (up_to u) /\ le (gr' (up_to u)) (up_cost u).
  Proof.
    intros HO Hrx Hvx Hreal Hgx Hxc Hcx (n & HM & ->). unfold upd_of. cbv zeta. unfold apply_update.
    cbn [up_from up_to up_cost up_estim]. set (cn := c +f co x n).
    assert (Hrn : real n cn) by (apply real_step; assumption).
    destruct (real_bounds _ _ Hrn) as [Hc0 Hcf].
    destruct (fltb K cn (st_g s n)) eqn:Hlt.
    2:{ exists gr. split; [exact HO|]. split; [reflexivity|]. split; [exact Hgx|].
        split; [auto|]. split; [intros; apply le_refl|].
        assert (Hreach : reached (st_parents s) n).
        { destruct (isS_dec ssn n) as [HS|HS]; [left; exact HS|].
          destruct (lookup n (st_parents s)) eqn:El; [right; congruence|].
          exfalso. rewrite (oi_unreached _ _ _ HO n) in Hlt; [unfold finite in Hcf; congruence|].
          intros [H|H]; [contradiction|congruence]. }
        split; [exact Hreach|].
        destruct (oi_g _ _ _ HO n Hreach) as [Eg|(Eg & Ho & _)].
        - rewrite <- Eg. apply (ex_total _ X). exact Hlt.
        - destruct Hrn as (s1 & c1 & l1 & R1 & <-). eapply Ho; eauto. }
    assert (HnS : ~ isS n).
    { intros HS. pose proof (oi_start _ _ _ HO n HS) as Hin.
      assert (Hle : le (gr n) cn).
      { destruct Hrn as (s1 & c1 & l1 & R1 & <-). eapply Hstart; eauto. }
      destruct (oi_g _ _ _ HO n (or_introl HS)) as [Eg|(Eg & _)]; rewrite Eg in Hlt.
      - rewrite (le_lt_false _ _ Hle) in Hlt. discriminate.
      - rewrite neg1_lt in Hlt by exact Hc0. discriminate. }
    assert (Hgn : reached (st_parents s) n -> st_g s n = gr n).
    { intros Hr. destruct (oi_g _ _ _ HO n Hr) as [Eg|(Eg & _)]; [exact Eg|].
      rewrite Eg, neg1_lt in Hlt by exact Hc0. discriminate. }
    assert (Hnx : n <> x).
    { intros ->. rewrite Hgx in Hlt. assert (le (gr x) cn); [|rewrite (le_lt_false _ _ H) in Hlt; discriminate].
      eapply le_tr; [exact Hxc|]. apply add_nonneg. apply adm_nonneg. apply HM. }
    cbn [Nat.ltb Nat.leb andb].
    assert (Hext : forall q, reached (st_parents s) q -> reached (insert n x (st_parents s)) q).
    { intros q [H|H]; [left; exact H|right]. rewrite lookup_insert. destruct (vec_dec q n); [discriminate|exact H]. }
    assert (Hdec : forall q, reached (st_parents s) q -> le (set_g gr n cn q) (gr q)).
    { intros q Hq. destruct (vec_dec q n) as [->|N].
      - rewrite set_g_eq. apply (lw_lt_le _ L). rewrite <- (Hgn Hq). exact Hlt.
      - rewrite set_g_neq by exact N. apply le_refl. }
    assert (Hback : forall q, q <> n -> reached (insert n x (st_parents s)) q -> reached (st_parents s) q).
    { intros q N [H|H]; [left; exact H|right]. rewrite lookup_insert in H. destruct (vec_dec q n); [contradiction|exact H]. }
    exists (set_g gr n cn).
    split.
    { constructor; cbn [st_g st_parents st_open].
      - intros q Hq. destruct (vec_dec q n) as [->|N].
        + rewrite set_g_eq. exact Hrn.
        + rewrite set_g_neq by exact N. apply (oi_real _ _ _ HO). auto.
      - intros q Hq. destruct (vec_dec q n) as [->|N].
        + left. rewrite !set_g_eq. reflexivity.
        + rewrite !set_g_neq by exact N. destruct (oi_g _ _ _ HO q (Hback q N Hq)) as [A|(A1 & A2 & A3)]; [left; exact A|].
          right. split; [exact A1|]. split; [exact A2|].
          eapply osettled_mono; [exact Hext|exact Hdec|apply set_g_neq; exact N|exact A3].
      - intros q Hq. destruct (vec_dec q n) as [->|N].
        + right. right. split; cbn [st_g st_open]; [rewrite !set_g_eq; reflexivity|].
          eexists. split; [left; reflexivity|]. cbn [en_v en_raw en_p]. rewrite set_g_eq.
          split; [reflexivity|]. split; [reflexivity|]. apply le_refl.
        + destruct (oi_live _ _ _ HO q (Hback q N Hq)) as [A|[A|(A0 & en & A1 & A2 & A3 & A4)]]; [left; exact A| |].
          * right. left. eapply osettled_mono; [exact Hext|exact Hdec|apply set_g_neq; exact N|exact A].
          * right. right. split; cbn [st_g st_open]; [rewrite !set_g_neq by exact N; exact A0|].
            exists en. rewrite set_g_neq by exact N. split; [right; exact A1|]. auto.
      - intros en [<-|Hen].
        + split; [|cbn [en_v en_raw en_p]; split; [apply HM|]].
          * right. cbn [en_v]. rewrite lookup_insert. destruct (vec_dec n n); congruence.
          * split; [rewrite set_g_eq; apply le_refl|]. split; [exact Hrn|]. right. split; [reflexivity|]. apply HM.
        + destruct (oi_open _ _ _ HO en Hen) as (B1 & B2 & B3 & B4 & B5).
          split; [auto|]. split; [exact B2|]. split; [eapply le_tr; [apply Hdec; exact B1|exact B3]|]. auto.
      - intros p q Hp Eq. rewrite lookup_insert in Eq. destruct (vec_dec p n) as [->|N].
        + injection Eq as <-. split; [apply Hext; exact Hrx|]. rewrite set_g_eq, set_g_neq by auto.
          apply add_mono_r. exact Hxc.
        + destruct (oi_par _ _ _ HO p q Hp Eq) as [B1 B2]. split; [auto|].
          rewrite (set_g_neq gr n cn p) by exact N. eapply le_tr; [|exact B2]. apply add_mono_r. apply Hdec. exact B1.
      - intros q Hq. destruct (vec_dec q n) as [->|N].
        + exfalso. apply Hq. right. rewrite lookup_insert. destruct (vec_dec n n); congruence.
        + rewrite set_g_neq by exact N. apply (oi_unreached _ _ _ HO). auto.
      - intros q Hq. destruct (vec_dec q n) as [->|N]; [contradiction|].
        rewrite set_g_neq by exact N. apply (oi_start _ _ _ HO). exact Hq. }
    split; [apply set_g_neq; auto|].
    split; [cbn [st_g]; rewrite set_g_neq by auto; exact Hgx|].
    split; [exact Hext|]. split; [exact Hdec|]. cbn [st_parents].
    split; [right; rewrite lookup_insert; destruct (vec_dec n n); congruence|].
    rewrite set_g_eq. apply le_refl.
  Qed.

  Lemma apply_updates_o O loop x c : forall us gr s,
    OInv (fun y => y = x) gr s -> reached (st_parents s) x -> valid size x -> real x c ->
    st_g s x = gr x -> le (gr x) c -> le c (gr x) -> Forall (from_x x c) us ->
    let s' := fold_left (apply_update K O loop 0) us s in
    exists gr', OInv (fun y => y = x) gr' s' /\ gr' x = gr x /\ st_g s' x = gr x /\
      (forall q, reached (st_parents s) q -> reached (st_parents s') q) /\
      (forall q, reached (st_parents s) q -> le (gr' q) (gr q)) /\
      (forall u, In u us -> reached (st_parents s') (up_to u) /\ le (gr' (up_to u)) (up_cost u)).
  Proof.
    induction us as [|u us IH]; intros gr s HO Hrx Hvx Hreal Hgx Hxc Hcx HF; simpl.
    - exists gr. split; [exact HO|]. split; [reflexivity|]. split; [exact Hgx|]. split; [auto|].
      split; [intros; apply le_refl|]. intros u [].
    - inversion HF as [|? ? H1 H2]; subst.
      destruct (apply_update_o O loop gr s x c u HO Hrx Hvx Hreal Hgx Hxc Hcx H1) as (g1 & A1 & A2 & A3 & A4 & A5 & A6 & A7).
      set (s1 := apply_update K O loop 0 s u) in *.
      destruct (IH g1 s1 A1 (A4 x Hrx) Hvx Hreal) as (g2 & B1 & B2 & B3 & B4 & B5 & B6); try (rewrite A2; assumption); [exact H2|].
      exists g2. split; [exact B1|]. split; [congruence|]. split; [congruence|]. split; [auto|].
      split; [intros q Hq; eapply le_tr; [apply B5; auto|auto]|].
      intros u0 [<-|Hu]; [|auto]. split; [auto|]. eapply le_tr; [apply B5; exact A6|exact A7].
  Qed.

  Lemma concat_single {A} (c : A) : forall ll, Permutation (concat ll) [c] ->
    exists l1 l2, ll = l1 ++ [c] :: l2 /\ Forall (eq []) l1 /\ Forall (eq []) l2.
  Proof using Type.
    clear. assert (Hnil : forall ll : list (list A), concat ll = [] -> Forall (eq []) ll).
    { induction ll as [|a ll IH]; intros E; [constructor|]. simpl in E. apply app_eq_nil in E.
      destruct E as [-> E]. constructor; auto. }
    induction ll as [|a ll IH]; intros P.
    - simpl in P. apply Permutation_nil in P. discriminate.
    - simpl in P. symmetry in P. apply Permutation_length_1_inv in P.
      destruct a as [|x a].
      + simpl in P. destruct IH as (l1 & l2 & -> & H1 & H2); [rewrite P; reflexivity|].
        exists ([] :: l1), l2. split; [reflexivity|]. split; [constructor; auto|exact H2].
      + simpl in P. injection P as -> P. apply app_eq_nil in P. destruct P as [-> P].
        exists [], ll. split; [reflexivity|]. split; [constructor|auto].
  Qed.

  Lemma mapM_app {A B} (f : A -> outcome B) l1 l2 :
    mapM f (l1 ++ l2) = (do a <- mapM f l1; do b <- mapM f l2; Ok (a ++ b)).
  Proof using Type.
    clear. induction l1 as [|x l1 IH]; simpl.
    - destruct (mapM f l2); reflexivity.
    - destruct (f x); simpl; [|reflexivity]. rewrite IH. destruct (mapM f l1); simpl; [|reflexivity].
      destruct (mapM f l2); reflexivity.
  Qed.

  Lemma threads_single O loop c s ws : fair_sched O ->
    mapM (thread_work K nc size M (st_g s) ssn e) (o_sched O loop [c]) = Ok ws ->
    exists w, thread_work K nc size M (st_g s) ssn e [c] = Ok w /\
      forall s1, fold_left (apply_thread K O loop 0) ws s1 = apply_thread K O loop 0 s1 w.
  Proof using Type.
    clear. intros HO E. destruct (concat_single c _ (HO loop [c])) as (l1 & l2 & El & H1 & H2).
    rewrite El in E. rewrite mapM_app in E.
    assert (Hn : forall l, Forall (eq []) l -> exists r, mapM (thread_work K nc size M (st_g s) ssn e) l = Ok r /\
       forall s1, fold_left (apply_thread K O loop 0) r s1 = s1).
    { induction l as [|a l IH]; intros HF; [exists []; auto|]. inversion HF; subst.
      destruct IH as (r & Er & Hr); [assumption|]. simpl. rewrite Er. simpl. eexists. split; [reflexivity|].
      intros s1. simpl. apply Hr. }
    destruct (Hn l1 H1) as (r1 & E1 & F1). destruct (Hn l2 H2) as (r2 & E2 & F2).
    rewrite E1 in E. cbn [bind mapM] in E.
    destruct (thread_work K nc size M (st_g s) ssn e [c]) as [w|]; [|discriminate]. cbn [bind] in E.
    rewrite E2 in E. cbn [bind] in E. injection E as <-. exists w. split; [reflexivity|].
    intros s1. rewrite fold_left_app, F1. simpl. apply F2.
  Qed.

  (** One round with a single popped entry. *)
  Lemma round_o O loop en gr s open' s2 : fair_sched O ->
    OInv (fun _ => False) gr s -> Permutation (st_open s) (en :: open') ->
    (forall en', In en' (st_open s) -> fltb K (en_p en') (en_p en) = false) ->
    round K nc size M O loop 0 ssn e [en] (mkState (st_g s) (st_parents s) open' (st_better s)) = Ok s2 ->
    exists gr', OInv (fun _ => False) gr' s2.
  Proof.
    intros HF HO P Hmin E. unfold round in E.
    set (s0 := mkState (st_g s) (st_parents s) open' (st_better s)) in *.
    destruct (mapM (thread_work K nc size M (st_g s0) ssn e) (o_sched O loop [en])) as [ws|] eqn:Ews; [|discriminate].
    cbn [bind] in E. set (b := nth _ _ _) in E. injection E as <-.
    destruct (threads_single O loop en s0 ws HF Ews) as (w & Ew & Hfold).
    rewrite Hfold. clear Hfold Ews ws. cbn [st_g s0] in Ew.
    assert (Hen : In en (st_open s)) by (eapply Permutation_in; [symmetry; exact P|left; reflexivity]).
    assert (Hsub : forall a, In a open' -> In a (st_open s)).
    { intros a Ha. eapply Permutation_in; [symmetry; exact P|right; exact Ha]. }
    assert (Hsplit : forall a, In a (st_open s) -> a = en \/ In a open').
    { intros a Ha. apply (Permutation_in _ P) in Ha. destruct Ha as [<-|Ha]; auto. }
    pose proof (popped_optimal gr s en HO Hen Hmin) as Hopt.
    destruct (oi_open _ _ _ HO en Hen) as (Hr & Hv & Hle & Hreal & Hk).
    destruct (real_bounds _ _ Hreal) as [Hraw0 Hrawf].
    set (x := en_v en) in *. set (c := en_raw en) in *.
    set (s1 := mkState (st_g s0) (st_parents s0) (st_open s0) b).
    cbn [thread_work] in Ew. fold x c in Ew.
    destruct (fltb K (st_g s x) c) eqn:Est.
    { (* stale: nothing happens *)
      injection Ew as <-. cbn [apply_thread fst snd fold_left]. exists gr.
      destruct HO as [A1 A2 A3 A4 A5 A6 A7]. constructor; cbn [s1 s0 st_g st_parents st_open]; auto.
      intros q Hq. destruct (A3 q Hq) as [A|[A|(B0 & a & B1 & B2 & B3 & B4)]]; [left; exact A|right; left; exact A|].
      right. right. split; [exact B0|]. exists a. cbn [s1 s0 st_open]. split; [|auto].
      destruct (Hsplit a B1) as [->|Ha]; [|exact Ha]. exfalso.
      fold x in B2. fold c in B3. subst q. rewrite B0, <- B3, (lw_lt_irrefl _ L) in Est. discriminate. }
    destruct (expand_list K nc size M (st_g s) ssn e x c (st_g s x) (m_searchGrids M x ssn e) []) as [us|] eqn:Eu; [|discriminate].
    cbn [bind] in Ew. injection Ew as <-. rewrite !app_nil_r.
    pose proof (expand_exact K nc size M ssn e Hnc Hsz Hmod (st_g s) x c us Hv Eu) as HX.
    assert (Hcg : le c (st_g s x)) by (apply (ex_total _ X); exact Est).
    assert (Hgx : st_g s x = gr x).
    { destruct (oi_g _ _ _ HO x Hr) as [A|(A & _)]; [exact A|]. rewrite A in Hcg.
      destruct (neg1_not_le c Hraw0 Hcg). }
    assert (Hcx : le c (gr x)) by (rewrite <- Hgx; exact Hcg).
    assert (HO1 : OInv (fun y => y = x) gr s1).
    { destruct HO as [A1 A2 A3 A4 A5 A6 A7]. constructor; cbn [s1 s0 st_g st_parents st_open]; auto.
      intros q Hq. destruct (vec_dec q x) as [->|N]; [left; reflexivity|].
      destruct (A3 q Hq) as [[]|[A|(B0 & a & B1 & B2 & B3 & B4)]]; [right; left; exact A|].
      right. right. split; [exact B0|]. exists a. cbn [s1 s0 st_open]. split; [|auto].
      destruct (Hsplit a B1) as [->|Ha]; [|exact Ha]. exfalso. apply N. auto. }
    assert (Hus : Forall (from_x x c) us).
    { apply Forall_forall. intros u Hu. apply HX in Hu. destruct Hu as (n & HM & _ & _ & ->). exists n. auto. }
    destruct (apply_updates_o O loop x c us gr s1 HO1 Hr Hv Hreal Hgx Hle Hcx Hus)
      as (gr' & B1 & B2 & B3 & B4 & B5 & B6).
    unfold apply_thread. cbn [fst snd]. rewrite ?app_nil_r.
    set (s3 := fold_left (apply_update K O loop 0) us s1) in *.
    assert (Hset : osettled gr' (st_parents s3) x).
    { intros n HM. rewrite B2.
      assert (Hrn : real n (c +f co x n)) by (apply real_step; assumption).
      destruct (real_bounds _ _ Hrn) as [Hn0 Hnf].
      assert (Hcn : le (c +f co x n) (gr x +f co x n)) by (apply add_mono_r; exact Hcx).
      assert (Hknown : st_g s n <> fmax K -> (st_g s n = gr n -> le (gr n) (gr x +f co x n)) ->
                reached (st_parents s3) n /\ le (gr' n) (gr x +f co x n)).
      { intros Hne Hg.
        assert (Hrch : reached (st_parents s) n).
        { destruct (isS_dec ssn n) as [HS|HS]; [left; exact HS|].
          destruct (lookup n (st_parents s)) eqn:El; [right; congruence|].
          exfalso. apply Hne. apply (oi_unreached _ _ _ HO). intros [H|H]; [contradiction|congruence]. }
        split; [apply B4; exact Hrch|]. eapply le_tr; [apply B5; exact Hrch|].
        destruct (oi_g _ _ _ HO n Hrch) as [A|(_ & A & _)]; [auto|].
        eapply le_tr; [|exact Hcn]. destruct Hrn as (s9 & c9 & l9 & R9 & <-). eapply A; eauto. }
      destruct (fltb K (st_g s n) (st_g s x)) eqn:E1.
      - apply Hknown.
        + intros Eg. rewrite Eg, (ex_antisym _ X _ _ (ex_le_max _ X _)) in E1. discriminate.
        + intros Eg. rewrite Eg, Hgx in E1. eapply le_tr; [apply (lw_lt_le _ L); exact E1|].
          apply add_nonneg. apply adm_nonneg. apply HM.
      - destruct (fltb K (c +f co x n) (st_g s n)) eqn:E2.
        + destruct (B6 (upd_of K M ssn e x c n)) as [C1 C2]; [apply HX; exists n; auto|].
          split; [exact C1|]. eapply le_tr; [exact C2|]. exact Hcn.
        + apply Hknown.
          * intros Eg. rewrite Eg in E2. unfold finite in Hnf. congruence.
          * intros Eg. rewrite Eg in E2. eapply le_tr; [apply (ex_total _ X); exact E2|exact Hcn]. }
    assert (HO3 : OInv (fun _ => False) gr' s3).
    { destruct B1 as [A1 A2 A3 A4 A5 A6 A7]. constructor; auto.
      intros q Hq. destruct (A3 q Hq) as [->|A]; [right; left; exact Hset|right; exact A]. }
    destruct us as [|u us]; [|exists gr'; exact HO3].
    exists gr'. cbn [app fold_left]. destruct HO3 as [A1 A2 A3 A4 A5 A6 A7].
    constructor; cbn [apply_dont st_g st_parents st_open]; auto.
    - intros q Hq. destruct (vec_dec q x) as [->|N].
      + right. rewrite set_g_eq. split; [reflexivity|]. split; [rewrite B2; exact Hopt|exact Hset].
      + rewrite set_g_neq by exact N. apply A2. exact Hq.
    - intros q Hq. destruct (vec_dec q x) as [->|N]; [right; left; exact Hset|].
      destruct (A3 q Hq) as [[]|[A|(C0 & C)]]; [right; left; exact A|].
      right. right. split; [cbn [st_g apply_dont]; rewrite set_g_neq by exact N; exact C0|exact C].
    - intros q Hq. rewrite set_g_neq; [apply A6; exact Hq|]. intros ->. apply Hq. apply B4. exact Hr.
  Qed.

  Lemma chain_cost P gr s : OInv P gr s -> forall q l, chain ssn (st_parents s) q l ->
    exists s0 c0, In (s0, c0) ssn /\ hd_error l = Some s0 /\ le (Cost c0 l) (gr q).
  Proof.
    intros HO q l C. induction C as [t Ht|p q l Hp Eq C (s0 & c0 & H1 & H2 & H3)].
    - exists t, (gr t). split; [apply (oi_start _ _ _ HO); exact Ht|]. split; [reflexivity|apply le_refl].
    - exists s0, c0. split; [exact H1|]. destruct l as [|a l]; [discriminate|]. injection H2 as ->.
      split; [reflexivity|].
      assert (Hl : last (s0 :: l) p = q).
      { destruct (chain_last _ _ _ _ C) as [l' El]. rewrite El. apply last_app_one. }
      rewrite (cost_app l c0 s0 q p Hl p). destruct (oi_par _ _ _ HO p q Hp Eq) as [_ B].
      eapply le_tr; [|exact B]. apply add_mono_r. exact H3.
  Qed.

  Lemma main_loop_opt O cl : fair_sched O -> min_pick K O -> le cl (fzero K) ->
    forall fuel loop gr gr0 s e' s', OInv (fun _ => False) gr s -> Inv K nc size M ssn e gr0 s ->
    main_loop K nc size M fuel O loop 1 0 cl ssn e s = LFound e' s' ->
    e' = e /\ exists gr' gr0', OInv (fun y => y = e) gr' s' /\ Inv K nc size M ssn e gr0' s' /\
       reached (st_parents s') e /\ opt e (gr' e).
  Proof.
    intros HF Hmin Hcl. induction fuel as [|fuel IH]; intros loop gr gr0 s e' s' HO HI E; [discriminate|].
    cbn [main_loop fetch] in E.
    destruct (take_at (o_pick O loop (st_open s)) (st_open s)) as [[en open']|] eqn:Et.
    2:{ cbn in E. destruct (o_abort O loop); discriminate. }
    pose proof (take_at_perm _ _ _ _ Et) as P.
    assert (Hen : In en (st_open s)) by (eapply Permutation_in; [symmetry; exact P|left; reflexivity]).
    assert (Hleave : leaves K cl en = false).
    { unfold leaves. destruct (oi_open _ _ _ HO en Hen) as (_ & _ & _ & Hreal & Hk).
      destruct (real_bounds _ _ Hreal) as [_ Hf].
      assert (Hh : forall z, fltb K z (fzero K) = false -> fltb K z cl = false).
      { intros z Hz. destruct (fltb K z cl) eqn:Ez; [|reflexivity].
        rewrite (lw_lt_le_trans _ L _ _ _ Ez Hcl) in Hz. discriminate. }
      destruct Hk as [[_ (ce & -> & Hce)]|[-> [Hadm _]]].
      - rewrite (ex_add_sub _ X) by exact Hf. auto.
      - rewrite (ex_add_comm _ X), (ex_add_sub _ X) by exact Hf. auto. }
    assert (Hpop : opt (en_v en) (gr (en_v en))).
    { eapply popped_optimal; eauto. }
    assert (Hsub : forall a, In a open' -> In a (st_open s)).
    { intros a Ha. eapply Permutation_in; [symmetry; exact P|right; exact Ha]. }
    assert (HI1 : Inv K nc size M ssn e gr0 (mkState (st_g s) (st_parents s) open' (st_better s))).
    { destruct HI as [A B C D G]. constructor; auto. }
    rewrite Hleave, orb_false_r in E.
    destruct (vec_dec (en_v en) e) as [Ev|Nv].
    - injection E as <- <-. split; [exact Ev|].
      rewrite Ev in Hpop. exists gr, gr0.
      destruct (oi_open _ _ _ HO en Hen) as (Hr & _). rewrite Ev in Hr.
      split; [|split; [exact HI1|split; [exact Hr|exact Hpop]]].
      destruct HO as [A1 A2 A3 A4 A5 A6 A7]. constructor; cbn [st_g st_parents st_open]; auto.
      intros q Hq. destruct (vec_dec q e) as [->|N]; [left; reflexivity|].
      destruct (A3 q Hq) as [[]|[A|(B0 & a & B1 & B2 & B3 & B4)]]; [right; left; exact A|].
      right. right. split; [exact B0|]. exists a. cbn [st_open]. split; [|auto].
      apply (Permutation_in _ P) in B1. destruct B1 as [<-|B1]; [|exact B1]. exfalso. congruence.
    - cbn [app fetch] in E. destruct (o_abort O loop); [discriminate|].
      destruct (round K nc size M O loop 0 ssn e [en] (mkState (st_g s) (st_parents s) open' (st_better s))) as [s2|] eqn:Er; [|discriminate].
      assert (Hm : forall en', In en' (st_open s) -> fltb K (en_p en') (en_p en) = false) by (intros; eapply Hmin; eauto).
      destruct (round_o O loop en gr s open' s2 HF HO P Hm Er) as [gr2 HO2].
      destruct (round_inv K L nc size M ssn e Hnc Hsz Hmod O loop 0 [en] gr0 _ HF HI1) as (s2' & Er' & gr3 & HI3 & _).
      { constructor; [|constructor]. apply (inv_open _ _ _ _ _ _ _ _ HI). exact Hen. }
      rewrite Er in Er'. injection Er' as <-.
      exact (IH (S loop) gr2 gr3 s2 e' s' HO2 HI3 E).
  Qed.
End Opt.

Lemma search_optimal {F} (K : cost_ops F) (L : cost_laws K) (X : exact_laws K) nc size M sts en
    fuel O cl rb ab path :
  well_typed nc size M sts en -> fair_sched O -> min_pick K O -> fleb K cl (fzero K) = true ->
  Forall (fun s => fleb K (fzero K) (snd s) = true /\ finite K (snd s)) sts ->
  search K nc size M fuel O 1 0 cl sts en rb = SDone true ab path ->
  forall ss e, wrapped_starts nc size sts ss -> canon unsigned_range nc en size e ->
  (forall p n, valid size p -> move K nc size M ss e p n ->
     fleb K (m_costEstim M p e) (fadd K (m_cost M p n ss e) (m_costEstim M n e)) = true) ->
  (forall s c, In (s, c) ss -> fltb K (m_costEstim M s e) (fzero K) = false) ->
  (forall s c, In (s, c) ss -> forall s' c' l, route K nc size M ss e s' c' s l ->
     fleb K c (route_cost K M ss e c' l) = true) ->
  exists s c, route K nc size M ss e s c e path /\
    forall s' c' l, route K nc size M ss e s' c' e l ->
      fleb K (route_cost K M ss e c path) (route_cost K M ss e c' l) = true.
Proof.
  intros (Hnc & Hsz & Len & HT & Hmod) HO Hmin Hcl H0 E ss e HW HE Hcons Hh0 Hstart. unfold search in E.
  assert (HP : forall i r, (nc <= i)%nat -> nth_error size i = Some r -> 0 < r).
  { intros i r _ Hn. apply (Forall_nth _ _ _ _ Hsz) in Hn. lia. }
  destruct sts as [|st0 sts']; [discriminate|].
  set (sts := st0 :: sts') in *.
  apply cycleUnsigned_iff in HE; [|exact Len|exact HP]. rewrite HE in E.
  destruct (init_starts K nc size M sts en e [] (fun _ => fmax K) [] None []) as [[[[[ssn g] open] better]|]|] eqn:Ei;
    [|discriminate|discriminate].
  destruct (init_starts_spec K nc size M en e sts [] _ [] None [] ssn g open better Hnc Hsz HT Ei)
    as (ss' & E1 & E2 & E3 & E4 & E5 & E6 & E7 & E8 & E9 & E10 & E11). simpl in E1. subst ssn.
  assert (ss' = ss) as -> by (eapply wrapped_unique; eauto).
  assert (Hcost : forall s c, In (s, c) ss -> fleb K (fzero K) c = true /\ finite K c).
  { apply (wrapped_costs nc size sts ss (fun c => fleb K (fzero K) c = true /\ finite K c) E2 H0). }
  assert (HI : Inv K nc size M ss e (fun _ => fzero K) (mkState g [] open better)).
  { apply init_inv; auto.
    - intros s c H. apply (Hcost s c H).
    - intros en0 Hen. destruct (E5 en0 Hen) as [[]|H]. exact H.
    - destruct E6 as [H|[_ [H|H]]]; [exact H|discriminate|congruence]. }
  assert (Hgs : forall x, isS ss x -> exists en0, In en0 open /\ en_v en0 = x /\ en_raw en0 = g x /\ start_entry K M e ss en0).
  { intros x [c Hx]. destruct (E11 x) as (en0 & A1 & A2 & A3); [apply List.in_map_iff; exists (x, c); auto|].
    exists en0. split; [exact A1|]. split; [exact A2|]. split; [exact A3|]. destruct (E5 en0 A1) as [[]|H]. exact H. }
  assert (Hone : forall s c, In (s, c) ss -> route K nc size M ss e s c s [s]).
  { intros s c H. split; [exact H|]. repeat split. }
  assert (HOI : OInv K nc size M ss e (fun _ => False) g (mkState g [] open better)).
  { assert (Hr : forall x, reached ss [] x -> isS ss x) by (intros x [H|H]; [exact H|destruct (H eq_refl)]).
    assert (HS : forall x, isS ss x -> In (x, g x) ss).
    { intros x Hx. destruct (Hgs x Hx) as (en0 & A1 & A2 & A3 & (c & ce & B1 & B2 & _)).
      rewrite <- A3, B2. rewrite <- A2. exact B1. }
    constructor; cbn [st_g st_parents st_open].
    - intros x Hx. exists x, (g x), [x]. split; [apply Hone; auto|reflexivity].
    - auto.
    - intros x Hx. right. right. split; [reflexivity|].
      destruct (Hgs x (Hr x Hx)) as (en0 & A1 & A2 & A3 & (c & ce & B1 & B2 & B3 & B4)).
      exists en0. split; [exact A1|]. split; [exact A2|]. split; [exact A3|].
      rewrite B4, (ex_add_comm _ X ce), A2 in *. rewrite <- B2, A3.
      apply add_mono_l; auto. eapply (ex_trunc _ X); [|exact B3]. eapply Hh0. exact B1.
    - intros en0 Hen. destruct (E5 en0 Hen) as [[]|(c & ce & B1 & B2 & B3 & B4)].
      split; [left; exists c; exact B1|]. split; [eapply E3; exact B1|]. rewrite B2.
      split.
      { assert (Hx : isS ss (en_v en0)) by (exists c; exact B1).
        apply (Hstart _ _ (HS _ Hx) _ _ _ (Hone _ _ B1)). }
      split; [exists (en_v en0), c, [en_v en0]; split; [apply Hone; exact B1|reflexivity]|].
      left. split; [exact B1|]. exists ce. split; [exact B4|].
      eapply (ex_trunc _ X); [|exact B3]. eapply Hh0. exact B1.
    - intros p q _ H. discriminate.
    - intros x Hx. apply E4. intros Hin. apply Hx. left. apply List.in_map_iff in Hin.
      destruct Hin as ([y c] & <- & Hin). exists c. exact Hin.
    - exact HS. }
  destruct (main_loop K nc size M fuel O 0 1 0 cl ss e (mkState g [] open better)) as [e' s'|ab' s'| |] eqn:Em;
    [| destruct rb; [destruct (findPath ss (st_better s') (st_parents s')) as [[? ?]|]; discriminate|discriminate]|discriminate|discriminate].
  destruct (main_loop_opt K L X nc size M ss e Hnc Hsz Hmod Hcons Hcost Hstart O cl HO Hmin Hcl fuel 0 g _ _ e' s' HOI HI Em)
    as (-> & gr' & gr0' & HO' & HI' & Hr & Hopt).
  destruct (inv_chain _ _ _ _ _ _ _ _ HI' e Hr) as [l C].
  destruct (chain_linked ss K nc size M e gr0' s' HI' e l C) as (L1 & _ & L3).
  destruct (chain_cost K L X nc size M ss e (fun y => y = e) gr' s' HO' e l C) as (s0 & c0 & D1 & D2 & D3).
  unfold findPath in E. rewrite (findPath_chain ss l e (st_parents s') _ [] C) in E by lia.
  rewrite app_nil_r in E. injection E as _ <-.
  exists s0, c0. split; [split; [exact D1|]; split; [exact D2|]; split; [apply L3|exact L1]|].
  intros s1 c1 l1 HR. eapply (lw_le_trans _ L); [exact D3|]. apply Hopt with (1 := HR).
Qed.
