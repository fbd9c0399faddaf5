(** C86, the costmap side: the update message after an overlay message shows the obstacles of the layers it passed. *)
From Verif Require Import Common CSpace CSpaceProps Inflate InflateProofs InflateProps Layers LayersProofs LayersRun LayersSync LayersProps.
Local Open Scope Z_scope.

(** The map on top of a list of layers. *)
Fixpoint top (p : cmap) (ls : list layer) : cmap := match ls with [] => p | l :: ls' => top (l_over l) ls' end.

Lemma entry_grows a p r out l l' r' out' ps : wf p -> ca p = a -> 0 < a -> layer_pre a p l -> tall a r ->
  entry p r out l = Ok (l', r', out', ps) -> l_kind l <> UpdateOut ->
  (forall q, in_map p q -> (in_region (l_region l) q \/ in_region r q -> in_region (l_region l') q) /\ (in_region (l_region l') q -> in_region r' q)) /\
  (output (l_kind l) = false -> out' = out /\ ps = []).
Proof.
  intros W Ha Pa (_ & _ & Tr & _) Tr2 E NU.
  destruct (reg_facts a p (l_region l) r W Ha Pa Tr Tr2) as (_ & _ & _ & _ & Ireg & _).
  assert (Hr : forall q, in_map p q -> in_region (l_region l) q \/ in_region r q -> in_region (normalize (merge (l_region l) r) (cw p) (ch p)) q).
  { intros q Iq Q. apply Ireg; [assumption|]. apply merge_superset; [apply Tr|apply Tr2|exact Q]. }
  unfold entry in E. destruct (bitblt _ _ _) as [bb|]; [|discriminate]. cbn [bind] in E.
  destruct (l_kind l); try congruence.
  - match type of E with bind ?d _ = _ => destruct d as [dd|] end; [|discriminate]. cbn [bind] in E. injection E as <- <- <- <-. cbn [l_region]. auto.
  - match type of E with bind ?d _ = _ => destruct d as [dd|] end; [|discriminate]. cbn [bind] in E. injection E as <- <- <- <-. cbn [l_region]. auto.
  - injection E as <- <- <- <-. cbn [l_region]. split; [|auto]. intros q Iq. split; [|auto]. intros _. apply in_full; assumption.
  - injection E as <- <- <- <-. cbn [l_region]. split; [auto|discriminate].
Qed.

(** Going down the chain, areas grow by the area handed down. *)
Lemma chain_grows a : forall ls p r out ls' ps, wf p -> ca p = a -> 0 < a -> chain_pre a p ls -> passed a p r ->
  (Forall (out_fits p) ls \/ zero_size r = false) -> chain p r out ls = Ok (ls', ps) ->
  Forall2 (fun l l' => same_conf l l' /\ (l_kind l <> UpdateOut -> forall q, in_map p q -> in_region (l_region l) q \/ in_region r q -> in_region (l_region l') q)) ls ls'.
Proof.
  induction ls as [|x ls IH]; intros p r out ls' ps W Ha Pa C P F E.
  - injection E as <- <-. constructor.
  - apply chain_pre_cons in C. destruct C as (L & U & UL & C).
    assert (F1 : out_fits p x \/ zero_size r = false). { destruct F as [F|F]; [|auto]. inversion F; auto. }
    destruct (entry_ok a p r out x W Ha Pa L U P F1) as (x' & r' & out' & ps1 & E1 & L' & S' & K' & P' & U' & F' & Z').
    cbn [chain] in E. rewrite E1 in E. cbn [bind] in E. destruct (chain (l_over x') r' out' ls) as [[ls1 ps2]|] eqn:E2; [|discriminate].
    cbn [bind fst snd] in E. injection E as <- <-.
    pose proof (entry_grows a p r out x x' r' out' ps1 W Ha Pa L (proj1 P) E1) as X.
    constructor. { split; [exact K'|]. intros NU q Iq Q. apply (proj1 (proj1 (X NU) q Iq)). exact Q. }
    destruct ls as [|y ls]. { injection E2 as <- <-. constructor. }
    assert (NU : l_kind x <> UpdateOut). { intros E3. discriminate (UL E3). }
    pose proof L' as (Wl & Dl & _). assert (Dl' := same_dims_sym _ _ Dl).
    assert (H : Forall2 (fun l l' => same_conf l l' /\ (l_kind l <> UpdateOut -> forall q, in_map (l_over x') q -> in_region (l_region l) q \/ in_region r' q -> in_region (l_region l') q)) (y :: ls) ls1).
    { apply (IH (l_over x') r' out' ls1 ps2); try assumption.
      - destruct Dl as (_ & _ & ->). assumption.
      - eapply chain_pre_dims; eassumption.
      - eapply passed_dims; eassumption.
      - destruct F as [F|F].
        { left. inversion F; subst. eapply Forall_impl; [|eassumption]. intros z. apply out_fits_dims. assumption. }
        { right. apply Z'; assumption. } }
    clear -H X NU Dl'. destruct (X NU) as [X1 _]. induction H as [|u v l1 l2 [Sc H] _ IH]; constructor; [|exact IH]. split; [exact Sc|].
    intros Ku q Iq Q. apply H; [exact Ku|apply (same_dims_in_map p (l_over x') q Dl'); exact Iq|]. destruct Q as [Q|Q]; [auto|]. right. destruct (X1 q Iq) as [A B]. auto.
Qed.

(** The update message at the end of a chain without other outputs. *)
Lemma chain_update a u : l_kind u = UpdateOut -> forall pre p r ls' ps, wf p -> ca p = a -> 0 < a -> chain_pre a p (pre ++ [u]) -> passed a p r ->
  Forall (out_fits p) (pre ++ [u]) -> Forall (fun l => output (l_kind l) = false) pre -> chain p r true (pre ++ [u]) = Ok (ls', ps) ->
  exists pre' u' upd, ls' = pre' ++ [u'] /\ ps = [PubUpdate upd] /\ length pre' = length pre /\
    (forall q, in_update upd q -> in_map p q /\ upd_cell upd (fst (fst q)) (snd (fst q)) (snd q) = peek (top p pre') q) /\
    (forall q, in_map p q -> in_region r q \/ (exists l', In l' pre' /\ in_region (l_region l') q) -> in_update upd q) /\
    (forall q y, in_map p q -> in_region r q -> In y pre' -> in_region (l_region y) q) /\
    (forall la l lb q y, pre' = la ++ l :: lb -> in_map p q -> in_region (l_region l) q -> In y lb -> in_region (l_region y) q).
Proof.
  intros Ku. induction pre as [|x pre IH]; intros p r ls' ps W Ha Pa C P F No E.
  - cbn [app chain] in *. apply chain_pre_cons in C. destruct C as (L & U & UL & C). specialize (U Ku). pose proof L as (_ & _ & Tr & _ & To & _).
    destruct P as [Tr2 Pr]. inversion F as [|? ? Fu _]; subst.
    destruct (reg_facts (ca p) p (l_region u) r W eq_refl Pa Tr Tr2) as (Treg & (_ & Preg) & _ & _ & Ireg & _).
    unfold entry in E. destruct (bitblt _ _ _) as [bb|]; [|discriminate]. cbn [bind] in E. rewrite Ku in E. set (reg := normalize (merge (l_region u) r) (cw p) (ch p)) in *.
    assert (Fr : fits p reg).
    { unfold reg in *. rewrite U in *. unfold merge in *. cbn [zero_size empty_region rw rh ra Z.eqb orb] in *. destruct (zero_size r) eqn:Zr.
      - rewrite normalize_fits; apply fits_empty; exact W.
      - destruct Pr as [Pr|Fr]; [congruence|]. rewrite normalize_fits; assumption. }
    destruct (gen_update_ok (ca p) p reg (l_oprev u) W eq_refl Pa Treg To Fr (or_introl (Fu Ku))) as (upd & Eg & Z1 & Z2).
    rewrite Eg in E. cbn [bind fst snd app] in E. injection E as <- <-.
    exists []. eexists. exists upd. split; [reflexivity|]. split; [reflexivity|]. split; [reflexivity|]. cbn [top]. split; [|split; [|split; [intros q y _ _ []|intros [|? ?] ? ? ? ? Q0; discriminate Q0]]].
    + intros q Q. destruct (zero_size reg) eqn:Z; [destruct (Z1 eq_refl q Q)|]. destruct (Z2 eq_refl) as [_ B]. apply B. exact Q.
    + intros q Iq [Q|(l' & [] & _)]. assert (Q' : in_region reg q) by (apply Ireg; [exact Iq|]; apply merge_superset; [apply Tr|apply Tr2|auto]).
      pose proof (tall_region_in_map _ p reg q eq_refl Treg Iq Q') as Z. destruct (Z2 Z) as [A _]. apply A; [exact Iq|]. apply merge_superset; [apply Treg|apply To|auto].
  - cbn [app chain] in *. apply chain_pre_cons in C. destruct C as (L & U & UL & C). inversion F as [|? ? Fx F']; subst. inversion No as [|? ? Nx No']; subst.
    assert (NU : l_kind x <> UpdateOut) by (intros E0; rewrite E0 in Nx; discriminate).
    destruct (entry_ok (ca p) p r true x W eq_refl Pa L U P (or_introl Fx)) as (x' & r' & out' & ps1 & E1 & L' & S' & K' & P' & U' & Fx' & Z').
    destruct (entry_grows (ca p) p r true x x' r' out' ps1 W eq_refl Pa L (proj1 P) E1 NU) as [X1 X2]. destruct (X2 Nx) as [-> ->].
    rewrite E1 in E. cbn [bind] in E. destruct (chain (l_over x') r' true (pre ++ [u])) as [[ls1 ps2]|] eqn:E2; [|discriminate].
    cbn [bind fst snd app] in E. injection E as <- <-. pose proof L' as (Wl & Dl & _). assert (Dl' := same_dims_sym _ _ Dl).
    destruct (IH (l_over x') r' ls1 ps2) as (pre' & u' & upd & -> & -> & Lp & A & B & C1 & C2); try assumption.
    + destruct Dl as (_ & _ & ->). reflexivity.
    + eapply chain_pre_dims; eassumption.
    + eapply passed_dims; eassumption.
    + eapply Forall_impl; [|exact F']. intros y. apply out_fits_dims. exact Dl'.
    + exists (x' :: pre'), u', upd. split; [reflexivity|]. split; [reflexivity|]. split; [cbn; congruence|]. cbn [top]. 
      assert (Id : forall q, in_map p q -> in_map (l_over x') q) by (intros q; apply (same_dims_in_map p (l_over x') q Dl')).
      split; [|split; [|split]].
      * intros q Q. destruct (A q Q) as [A1 A2]. split; [|exact A2]. apply (same_dims_in_map (l_over x') p q Dl). exact A1.
      * intros q Iq Q. assert (Iq' : in_map (l_over x') q) by (apply (same_dims_in_map p (l_over x') q Dl'); exact Iq). apply B; [exact Iq'|].
        destruct (X1 q Iq) as [Y1 Y2]. destruct Q as [Q|(l' & [<-|Hl] & Q)]; [left; auto|left; auto|right; exists l'; auto].
      * intros q y Iq Q Hy. destruct (X1 q Iq) as [Y1 Y2]. destruct Hy as [<-|Hy]; [auto|]. apply (C1 q y); auto.
      * intros [|z la] l lb q y E0 Iq Q Hy; cbn [app] in E0.
        { injection E0 as -> ->. destruct (X1 q Iq) as [Y1 Y2]. apply (C1 q y); auto. }
        { injection E0 as -> ->. apply (C2 la l lb q y); auto. }
Qed.

(** ** The target of an overlay message *)
Definition message_area (p : cmap) (m : omsg) : region := Region (gox (o_grid m)) (goy (o_grid m)) 0 (o_w m) (o_h m) (ca p) (o_stamp m).
Definition handed (p : cmap) (m : omsg) (l : layer) : layer := Layer (l_kind l) (l_over l) (message_area p m) (l_prev l) (l_oprev l) (Some m).
Lemma overlay_at_split m x rest : forall low p, 
  overlay_at p (length low) m (low ++ x :: rest) = do c <- chain (top p low) (message_area (top p low) m) true (handed (top p low) m x :: rest); Ok (low ++ fst c, snd c).
Proof.
  induction low as [|l low IH]; intros p; cbn [length app overlay_at top].
  - fold (message_area p m). fold (handed p m x). destruct (chain _ _ _ _) as [[? ?]|]; reflexivity.
  - rewrite IH. destruct (chain _ _ _ _) as [[? ?]|]; reflexivity.
Qed.
Lemma area_once p m x ls : chain p (message_area p m) true (handed p m x :: ls) = chain p empty_region true (handed p m x :: ls).
Proof.
  cbn [chain]. replace (entry p (message_area p m) true (handed p m x)) with (entry p empty_region true (handed p m x)); [reflexivity|].
  unfold entry. cbn [l_region handed].
  replace (normalize (merge (message_area p m) (message_area p m)) (cw p) (ch p)) with (normalize (merge (message_area p m) empty_region) (cw p) (ch p)); [reflexivity|].
  set (r := message_area p m). replace (merge r empty_region) with r by reflexivity. destruct (zero_size r) eqn:Z; [unfold merge; rewrite Z; reflexivity|rewrite (merge_self r Z); reflexivity].
Qed.
Lemma area_tall p m : wf p -> msg_ok m -> tall (ca p) (message_area p m).
Proof. intros (_ & _ & Wa & _) (_ & m1 & m2). split; [unfold sized, message_area; cbn; lia|]. cbn. lia. Qed.
Lemma area_rect p m q : in_map p q -> in_rect m q -> in_region (message_area p m) q.
Proof. destruct q as [[x y] z]. cbn. lia. Qed.

Lemma top_dims a : forall ls p, Forall (layer_pre a p) ls -> wf p -> wf (top p ls) /\ same_dims p (top p ls).
Proof.
  induction ls as [|l ls IH]; intros p F W; [split; [exact W|apply same_dims_refl]|]. inversion F as [|? ? L F']; subst. pose proof L as (Wl & Dl & _).
  destruct (IH (l_over l)) as [A B]; [|exact Wl|].
  - eapply Forall_impl; [|exact F']. intros x. apply layer_pre_dims. apply same_dims_sym. exact Dl.
  - cbn [top]. split; [exact A|]. eapply same_dims_trans; [apply same_dims_sym; exact Dl|exact B].
Qed.
Lemma updates_last_suffix low rest : updates_last (low ++ rest) -> updates_last rest.
Proof. induction low as [|l low IH]; [auto|]. cbn. intros [_ H]. auto. Qed.
Lemma pre_suffix a p low rest : wf p -> chain_pre a p (low ++ rest) -> Forall (out_fits p) (low ++ rest) ->
  chain_pre a (top p low) rest /\ Forall (out_fits (top p low)) rest /\ wf (top p low) /\ same_dims p (top p low).
Proof.
  intros W [c1 c2 c3] F. apply Forall_app in c1, c3, F. destruct c1 as [c1 c1'], c3 as [_ c3], F as [_ F].
  destruct (top_dims a low p c1 W) as [A B]. split.
  - split; [|apply (updates_last_suffix low); exact c2|exact c3]. eapply Forall_impl; [|exact c1']. intros x. apply layer_pre_dims. exact B.
  - split; [|split; assumption]. eapply Forall_impl; [|exact F]. intros x. apply out_fits_dims. exact B.
Qed.
Lemma pre_handed a p m x rest : ca p = a -> wf p -> msg_ok m -> (exists k, l_kind x = Foot k) -> chain_pre a p (x :: rest) -> Forall (out_fits p) (x :: rest) ->
  chain_pre a p (handed p m x :: rest) /\ Forall (out_fits p) (handed p m x :: rest).
Proof.
  intros Ha W Mo (k & Kx) C F. pose proof C as C'. apply chain_pre_cons in C'. destruct C' as (L & U & UL & [c1 c2 c3]). inversion F; subst. split.
  - split; [constructor; [|exact c1]|split; [intros E; cbn in E; congruence|exact c2]|constructor; [intros E; cbn in E; congruence|exact c3]].
    destruct L as (A1 & A2 & A3 & A4 & A5 & A6 & A7). unfold layer_pre, handed. cbn [l_over l_region l_prev l_oprev l_kind l_msg].
    split; [assumption|]. split; [assumption|]. split; [apply area_tall; assumption|]. split; [assumption|]. split; [assumption|]. split; [assumption|]. intros m' E. injection E as <-. assumption.
  - constructor; [intros E; cbn in E; congruence|assumption].
Qed.

(** ** The update area of a layer covers the area of its latest message *)
Definition holds (p : cmap) (l : layer) : Prop := l_kind l <> UpdateOut -> forall m q, l_msg l = Some m -> in_map p q -> in_rect m q -> in_region (l_region l) q.
Lemma grown_holds p r ls ls' : 
  Forall2 (fun l l' => same_conf l l' /\ (l_kind l <> UpdateOut -> forall q, in_map p q -> in_region (l_region l) q \/ in_region r q -> in_region (l_region l') q)) ls ls' ->
  Forall (holds p) ls -> Forall (holds p) ls'.
Proof.
  induction 1 as [|l l' ls ls' [[K1 K2] H] _ IH]; intros F; [constructor|]. inversion F as [|? ? Hl F']; subst. constructor; [|apply IH; exact F'].
  intros NU m q Em Iq Q. rewrite <- K1 in NU. rewrite <- K2 in Em. apply (H NU q Iq). left. apply (Hl NU m q Em Iq Q).
Qed.
Lemma holds_dims p p' ls : same_dims p p' -> Forall (holds p) ls -> Forall (holds p') ls.
Proof. intros D. apply Forall_impl. intros l H NU m q Em Iq. apply (H NU m q Em). apply (same_dims_in_map p' p q (same_dims_sym _ _ D)). exact Iq. Qed.

Section History.
  Variables (root : fcfg) (ang : Z) (ks : list kind).
  Hypotheses (Hroot : 0 <= f_r root) (Hang : 0 < ang) (Hks : Forall kind_ok ks) (Hlast : forall pre post, ks = pre ++ UpdateOut :: post -> post = []).

  Definition stack_holds (s : stack) : Prop := Forall (holds (s_base s)) (s_layers s).
  Lemma base_holds lat s b s' ps : can_base root ang ks lat s -> good_base b -> set_base b s = Ok (s', ps) -> stack_holds s'.
  Proof.
    intros Cb Gb E. pose proof (set_base_ok root ang ks Hroot Hang Hks Hlast lat s b Cb Gb) as (s2 & ps2 & E' & R). rewrite E in E'. injection E' as <- <-.
    destruct Cb as [A B C D Ek F]. destruct Gb as (Gw & Gh & GL).
    unfold set_base in E. rewrite A, B, (proj2 (Z.ltb_lt 0 ang) Hang), (proj2 (Z.leb_le _ _)) in E by lia. cbn [andb] in E.
    destruct (base_map_total root (b_w b) (b_h b) ang (b_data b)) as (m & Em & Wm & Mw & Mh & Ma); try assumption; try lia.
    rewrite Em in E. cbn [bind] in E.
    set (full := Region 0 0 0 (b_w b) (b_h b) ang (b_stamp b)) in *.
    set (ls := map (fun l => Layer (l_kind l) m (l_region l) (l_prev l) (l_oprev l) (l_msg l)) (s_layers s)) in *.
    assert (Tf : tall ang full). { split; [unfold sized, full; cbn; lia|]. cbn. lia. }
    assert (Ff : fits m full). { split; [apply Tf|]. unfold full. cbn. lia. }
    destruct (reg_facts ang m (s_rregion s) full Wm Ma Hang C Tf) as (T1 & P1 & _ & _ & I1 & Z1).
    rewrite Mw, Mh in *. set (reg := normalize (merge (s_rregion s) full) (b_w b) (b_h b)) in *.
    assert (Zf : zero_size full = false). { apply zero_size_false; [apply Tf|]. unfold full. cbn. lia. }
    specialize (Z1 Zf Ff).
    destruct (chain m reg true ls) as [[ls' ps']|] eqn:Ec; [|discriminate]. cbn [bind fst snd] in E. injection E as <- <-.
    assert (Cp : chain_pre ang m ls).
    { split.
      - apply Forall_forall. intros l Hl. apply in_map_iff in Hl. destruct Hl as (l0 & <- & Hl). rewrite Forall_forall in D. destruct (D l0 Hl) as (d1 & d2 & d3 & d4 & d5).
        unfold layer_pre. cbn. split; [exact Wm|]. split; [apply same_dims_refl|]. repeat (split; [assumption|]). split; [|exact d4].
        rewrite Forall_forall in Hks. apply Hks. rewrite <- Ek. apply List.in_map. exact Hl.
      - apply (updates_last_kinds ks Hlast). unfold ls. rewrite map_map. cbn. exact Ek.
      - apply Forall_forall. intros l Hl. apply in_map_iff in Hl. destruct Hl as (l0 & <- & Hl). rewrite Forall_forall in D. destruct (D l0 Hl) as (_ & _ & _ & _ & d5). exact d5. }
    pose proof (chain_grows ang ls m reg true ls' ps' Wm Ma Hang Cp P1 (or_intror Z1) Ec) as Gr.
    unfold stack_holds. cbn [s_base s_layers]. clear -Gr I1 Mw Mh Ma Tf C.
    induction Gr as [|l l' l1 l2 [[K1 K2] H] _ IH]; [constructor|]. constructor; [|exact IH]. intros NU m' q _ Iq _. rewrite <- K1 in NU. apply (H NU q Iq). right. apply I1; [exact Iq|].
    apply merge_superset; [apply C|apply Tf|]. right. destruct q as [[x y] z]. cbn in Iq |- *. lia.
  Qed.
  Lemma nth_split {A} (l : list A) i x : nth_error l i = Some x -> exists l1 l2, l = l1 ++ x :: l2 /\ length l1 = i.
  Proof. intros H. destruct (nth_error_split l i H) as (l1 & l2 & -> & E). eauto. Qed.
  Lemma overlay_holds b lat s i m ls' ps : ready root ang ks b lat s -> good_event ks (EvOverlay i m) -> overlay_at (s_base s) i m (s_layers s) = Ok (ls', ps) ->
    stack_holds s -> Forall (holds (s_base s)) ls'.
  Proof.
    intros R ((k & Hk) & Mo) E H. destruct R as [A B C (D1 & D2 & D3) W F G S I J K]. unfold stack_holds in H.
    assert (El : exists l, nth_error (s_layers s) i = Some l /\ l_kind l = Foot k).
    { rewrite <- J, nth_error_map in Hk. destruct (nth_error (s_layers s) i) as [l|]; [|discriminate]. exists l. split; [reflexivity|]. cbn in Hk. congruence. }
    destruct El as (x & El & Kx). destruct (nth_split _ _ _ El) as (low & rest & Els & Ll). rewrite Els in *. subst i.
    rewrite overlay_at_split, area_once in E. destruct (pre_suffix ang (s_base s) low (x :: rest) W G I) as (G' & I' & W' & Dt).
    set (p := top (s_base s) low) in *. assert (Ca : ca p = ang) by (destruct Dt as (_ & _ & <-); exact D3).
    destruct (pre_handed ang p m x rest Ca W' Mo (ex_intro _ k Kx) G' I') as [G2 I2].
    destruct (chain p empty_region true (handed p m x :: rest)) as [[ls2 ps2]|] eqn:Ec; [|discriminate]. cbn [bind fst snd] in E. injection E as <- <-.
    assert (Pe : passed ang p empty_region) by (split; [apply tall_empty|left; reflexivity]).
    pose proof (chain_grows ang _ p empty_region true ls2 ps2 W' Ca Hang G2 Pe (or_introl I2) Ec) as Gr.
    apply Forall_app in H. destruct H as [H1 H2]. apply Forall_app. split; [exact H1|]. apply (holds_dims p (s_base s) _ (same_dims_sym _ _ Dt)).
    apply (grown_holds p empty_region _ _ Gr). apply (holds_dims _ p _ Dt) in H2. inversion H2; subst. constructor; [|assumption].
    intros _ m' q Em Iq Q. cbn [l_msg handed] in Em. injection Em as <-. cbn [l_region handed]. apply area_rect; assumption.
  Qed.
  Lemma replay_holds q : forall b lat n n' ps, good_base b -> ready root ang ks b lat (n_stack n) -> stack_holds (n_stack n) ->
    (forall i m, In (i, m) q -> good_event ks (EvOverlay i m)) -> replay q n = Ok (n', ps) -> stack_holds (n_stack n').
  Proof.
    induction q as [|[i m] q IH]; intros b lat n n' ps Gb R H Hq E; cbn [replay] in E.
    - injection E as <- <-. exact H.
    - pose proof (rd_dims _ _ _ _ _ _ R) as (D1 & D2 & _). destruct Gb as (G1 & G2 & G3).
      unfold cb_overlay in E. rewrite (proj2 (Z.ltb_ge _ _)), (proj2 (Z.ltb_ge _ _)) in E by lia. cbn [orb] in E.
      destruct (Hq i m (or_introl eq_refl)) as [Hk Mo].
      destruct (ready_overlay root ang ks Hang b lat (n_stack n) i m R Hk Mo) as (ls' & ps1 & Eo & R').
      rewrite Eo in E. cbn [bind fst snd] in E. destruct (replay q _) as [[n2 ps2]|] eqn:E2; [|discriminate]. cbn [bind fst snd] in E. injection E as <- <-.
      refine (IH b _ _ _ _ (conj G1 (conj G2 G3)) _ _ _ E2); cbn [n_stack]; [exact R'|exact (overlay_holds b lat _ i m ls' ps1 R (conj Hk Mo) Eo H)|].
      intros j m' Hj. apply Hq. right. exact Hj.
  Qed.
  Lemma run_holds es : Forall (good_event ks) es -> forall n ps, run (new_node root ang ks) es = Ok (n, ps) -> last_base es <> None -> stack_holds (n_stack n).
  Proof.
    induction es as [|e es IH] using rev_ind; intros G n ps E Lb; [exfalso; apply Lb; reflexivity|].
    apply Forall_app in G. destruct G as [G Ge]. inversion Ge as [|? ? Ge' _]; subst.
    destruct (run_ok root ang ks Hroot Hang Hks Hlast es G) as (n0 & ps0 & E0 & S). rewrite run_app, E0 in E. cbn [bind fst snd run] in E.
    destruct (step n0 e) as [[n1 p1]|] eqn:Es; [|discriminate]. cbn [bind fst snd] in E. injection E as <- <-.
    rewrite last_base_snoc in Lb. unfold state_after in S. destruct e as [b|i m]; cbn [step] in Es.
    - unfold Layers.cb_map in Es. cbn in Ge'.
      assert (HB : exists lat, can_base root ang ks lat (n_stack n0) /\ forall i m, In (i, m) (n_buf n0) -> good_event ks (EvOverlay i m)).
      { destruct (last_base es) as [b0|] eqn:L.
        - destruct S as (B & _ & R). exists (fun j => latest j es). split; [eapply ready_can; exact R|]. rewrite B. intros ? ? [].
        - subst n0. exists (fun _ => None). split; [apply new_can|]. cbn [n_buf]. intros i m Hi. exact (good_overlays ks es G i m Hi). }
      destruct HB as (lat & Cb & Hq). destruct (set_base_ok root ang ks Hroot Hang Hks Hlast lat _ b Cb Ge') as (s & ps1 & Eb & R). rewrite Eb in Es. cbn [bind fst snd] in Es.
      destruct (replay (n_buf n0) _) as [[n2 ps2]|] eqn:Er; [|discriminate]. cbn [bind fst snd] in Es. injection Es as <- <-. cbn [n_stack].
      refine (replay_holds (n_buf n0) b lat _ _ _ Ge' _ _ Hq Er); cbn [n_stack]; [exact R|exact (base_holds lat _ b s ps1 Cb Ge' Eb)].
    - destruct (last_base es) as [b|] eqn:L; [|congruence]. destruct S as (B & Gb & R). pose proof (rd_dims _ _ _ _ _ _ R) as (D1 & D2 & _). destruct Gb as (G1 & G2 & G3).
      unfold cb_overlay in Es. rewrite (proj2 (Z.ltb_ge _ _)), (proj2 (Z.ltb_ge _ _)) in Es by lia. cbn [orb] in Es.
      destruct (overlay_at _ _ _ _) as [[ls' ps1]|] eqn:Eo; [|discriminate]. cbn [bind fst snd] in Es. injection Es as <- <-. cbn [n_stack].
      unfold stack_holds. cbn [s_base s_layers]. refine (overlay_holds b _ _ i m ls' ps1 R Ge' Eo _). apply (IH G n0 ps0 E0). congruence.
  Qed.
End History.

(** ** From a layer to the update message *)
(** Layers that do not take obstacles away: overlays in the mode that keeps the larger cost, and the handling of unknown cells. *)
Definition raises (k : kind) : Prop := match k with Foot c => f_clear c = false | Unknown _ => True | _ => False end.
Lemma raises_output k : raises k -> output k = false.
Proof. destruct k; cbn; tauto. Qed.
Lemma shows_raises a p l q v : wf p -> layer_pre a p l -> raises (l_kind l) -> in_map p q -> shows l p q v -> 0 <= peek p q -> peek p q <= v.
Proof.
  intros W (_ & _ & _ & _ & _ & K & M) R Iq S P. unfold shows, raises, kind_ok in *. destruct (l_kind l) as [k|c| | |]; try contradiction.
  - destruct (l_msg l) as [m|]; [|lia]. destruct (o_frame m); [|lia]. destruct S as (d & E & ->). destruct (M m eq_refl) as (G & _).
    destruct (C24_inflation_writes_nothing_spurious k (o_grid m) p W G K) as (d2 & E2 & _ & _ & H). rewrite E in E2. injection E2 as <-.
    destruct (H q Iq) as (before & _ & B & _ & B2). assert (before = peek p q) as -> by (apply B; intros [X _]; congruence). apply B2. lia.
  - rewrite (proj2 (Z.ltb_ge _ _)) in S by exact P. lia.
Qed.
Lemma top_raises a q : forall ls p, wf p -> Forall (layer_pre a p) ls -> chain_settled p ls -> Forall (fun l => raises (l_kind l)) ls -> in_map p q ->
  (forall l, In l ls -> in_region (l_region l) q) -> 0 <= peek p q -> peek p q <= peek (top p ls) q.
Proof.
  induction ls as [|l ls IH]; intros p W F S R Iq Ir P; [cbn; lia|]. inversion F as [|? ? L F']; subst. inversion R as [|? ? Rl R']; subst. destruct S as [S0 S]. pose proof L as (Wl & Dl & _).
  assert (Iq' : in_map (l_over l) q) by (apply (same_dims_in_map p _ q (same_dims_sym _ _ Dl)); exact Iq).
  pose proof (shows_raises a p l q _ W L Rl Iq (S0 q Iq (or_introl (Ir l (or_introl eq_refl)))) P) as H. cbn [top]. etransitivity; [exact H|]. apply IH; try assumption; [|intros x Hx; apply Ir; right; exact Hx|lia].
  eapply Forall_impl; [|exact F']. intros x. apply layer_pre_dims. apply same_dims_sym. exact Dl.
Qed.
Lemma top_app p l1 l2 : top p (l1 ++ l2) = top (top p l1) l2.
Proof. revert p. induction l1 as [|l l1 IH]; intros p; [reflexivity|]. cbn. apply IH. Qed.
Lemma settled_suffix low rest p : chain_settled p (low ++ rest) -> chain_settled (top p low) rest.
Proof. revert p. induction low as [|l low IH]; intros p; [auto|]. intros [_ H]. apply IH. exact H. Qed.
Lemma map_split {A B} (f : A -> B) l l1 b l2 : map f l = l1 ++ b :: l2 -> exists k1 x k2, l = k1 ++ x :: k2 /\ map f k1 = l1 /\ f x = b /\ map f k2 = l2.
Proof. intros E. apply map_eq_app in E. destruct E as (k1 & k & -> & E1 & E2). destruct k as [|x k2]; [discriminate|]. injection E2 as E2 E3. exists k1, x, k2. auto. Qed.

(** An overlay message for the layer after [low] makes the node publish an update message.  In the area of the latest message [m] of the layer with footprint [k] above it
    (or the same), the update message shows what [k] draws for [m], or more. *)
Theorem C86_update_messages_show_the_layer root ang ks low mid k above es m0 m :
  good_conf root ang ks -> ks = low ++ mid ++ Foot k :: above ++ [UpdateOut] -> Forall (fun k => output k = false) mid -> Forall raises above ->
  Forall (good_event ks) (es ++ [EvOverlay (length low) m0]) -> last_base es <> None ->
  latest (length low + length mid) (es ++ [EvOverlay (length low) m0]) = Some m -> o_frame m = true ->
  exists n ps n' upd parent d, run (new_node root ang ks) es = Ok (n, ps) /\ step n (EvOverlay (length low) m0) = Ok (n', [PubUpdate upd]) /\
    s_base (n_stack n') = s_base (n_stack n) /\ wf parent /\ same_dims (s_base (n_stack n)) parent /\ msg_ok m /\ generate k (o_grid m) parent = Ok d /\
    (forall q, in_update upd q -> in_map (s_base (n_stack n)) q) /\
    (forall q, in_map (s_base (n_stack n)) q -> in_rect m q -> in_update upd q /\ (0 <= peek d q -> peek d q <= upd_cell upd (fst (fst q)) (snd (fst q)) (snd q))).
Proof.
  intros [H1 H2 H3 H4] Eks Hm Hab G Lb La Fr.
  pose proof G as G0. apply Forall_app in G0. destruct G0 as [Ges Gm]. inversion Gm as [|? ? Gm' _]; subst x l.
  destruct (run_ok root ang ks H1 H2 H3 H4 es Ges) as (n & ps & E & S). unfold state_after in S. destruct (last_base es) as [b|] eqn:L; [|congruence].
  destruct S as (Bf & Gb & R). pose proof (rd_dims _ _ _ _ _ _ R) as (D1 & D2 & D3). pose proof Gb as (B1 & B2 & _).
  destruct Gm' as [Hk0 Mo0]. destruct (ready_overlay root ang ks H2 b _ (n_stack n) (length low) m0 R Hk0 Mo0) as (ls' & ps1 & Eo & R').
  set (n' := Node (Stack (s_root (n_stack n)) (s_ang (n_stack n)) (s_base (n_stack n)) (s_rregion (n_stack n)) ls') (n_buf n)).
  assert (Es : step n (EvOverlay (length low) m0) = Ok (n', ps1)).
  { cbn [step]. unfold cb_overlay. rewrite (proj2 (Z.ltb_ge _ _)), (proj2 (Z.ltb_ge _ _)) by lia. cbn [orb]. rewrite Eo. reflexivity. }
  assert (Hd : stack_holds (n_stack n')).
  { apply (run_holds root ang ks H1 H2 H3 H4 (es ++ [EvOverlay (length low) m0]) G n' (ps ++ ps1 ++ [])).
    - rewrite run_app, E. cbn [bind fst snd run]. rewrite Es. reflexivity.
    - rewrite last_base_snoc, L. discriminate. }
  set (base := s_base (n_stack n)) in *.
  pose proof (rd_kind _ _ _ _ _ _ R) as Kl. pose proof (rd_pre _ _ _ _ _ _ R) as Pre. pose proof (rd_fit _ _ _ _ _ _ R) as Fit. pose proof (rd_wf _ _ _ _ _ _ R) as W. fold base in Pre, Fit, W.
  pose proof (rd_kind _ _ _ _ _ _ R') as Kl'. pose proof (rd_pre _ _ _ _ _ _ R') as Pre'. pose proof (rd_set _ _ _ _ _ _ R') as Set'. pose proof (rd_msg _ _ _ _ _ _ R') as Msg'.
  cbn [s_base s_layers] in Kl', Pre', Set', Msg'. fold base in Pre', Set'. unfold stack_holds in Hd. cbn [n' n_stack s_base s_layers] in Hd.
  (* the layers before the message: [lo], the target [x], the rest, the update output [u] *)
  assert (Sp : exists lo x rest u, s_layers (n_stack n) = lo ++ x :: rest ++ [u] /\ length lo = length low /\ l_kind u = UpdateOut /\ Forall (fun l => output (l_kind l) = false) (x :: rest)).
  { rewrite Eks in Kl. rewrite app_assoc in Kl.
    assert (exists hd tl, mid ++ Foot k :: above = hd :: tl) as (hd & tl & Eh) by (destruct mid; cbn; eauto).
    assert (Kl2 : map l_kind (s_layers (n_stack n)) = low ++ hd :: tl ++ [UpdateOut]).
    { rewrite Kl. rewrite <- app_assoc. f_equal. change (hd :: tl ++ [UpdateOut]) with ((hd :: tl) ++ [UpdateOut]). rewrite <- Eh, <- app_assoc. reflexivity. }
    apply map_split in Kl2. destruct Kl2 as (lo & x & rr & El & Elo & Ex & Er). apply map_split in Er. destruct Er as (rest & u & nil' & -> & Er & Eu & En). apply map_eq_nil in En. subst nil'.
    exists lo, x, rest, u. split; [exact El|]. split; [rewrite <- Elo, map_length; reflexivity|]. split; [exact Eu|].
    apply (proj1 (Forall_map l_kind (fun k => output k = false) (x :: rest))). cbn [map]. rewrite Ex, Er, <- Eh. apply Forall_app. split; [exact Hm|]. constructor; [reflexivity|]. eapply Forall_impl; [|exact Hab]. apply raises_output. }
  destruct Sp as (lo & x & rest & u & El & Llo & Ku & No).
  rewrite El in Pre, Fit. destruct (pre_suffix ang base lo (x :: rest ++ [u]) W Pre Fit) as (C2 & F2 & W2 & Dt).
  set (p := top base lo) in *. assert (Ca : ca p = ang) by (destruct Dt as (_ & _ & <-); exact D3).
  assert (Kx : exists kx, l_kind x = Foot kx).
  { destruct Hk0 as (kx & Hk0). exists kx. rewrite <- Kl, El, <- Llo, nth_error_map, nth_error_app2, Nat.sub_diag in Hk0 by lia. cbn in Hk0. congruence. }
  destruct (pre_handed ang p m0 x (rest ++ [u]) Ca W2 Mo0 Kx C2 F2) as [C3 F3].
  rewrite El, <- Llo, overlay_at_split, area_once in Eo. fold p in Eo.
  destruct (chain p empty_region true (handed p m0 x :: rest ++ [u])) as [[ls2 ps2]|] eqn:Ec; [|discriminate]. cbn [bind fst snd] in Eo. injection Eo as Els' <-.
  assert (Pe : passed ang p empty_region) by (split; [apply tall_empty|left; reflexivity]).
  change (handed p m0 x :: rest ++ [u]) with ((handed p m0 x :: rest) ++ [u]) in *.
  destruct (chain_update ang u Ku _ p empty_region ls2 ps2 W2 Ca H2 C3 Pe F3) as (pre' & u' & upd & El2 & Ep & Lp & A & B & _ & Gr); [inversion No; subst; constructor; assumption|exact Ec|].
  subst ps2 ls2 ls'.
  (* the layers after the message *)
  rewrite Eks in Kl'.
  assert (Sq : exists la l lb, pre' = la ++ l :: lb /\ length la = length mid /\ l_kind l = Foot k /\ map l_kind lb = above).
  { rewrite map_app in Kl'. assert (Kp : map l_kind (pre' ++ [u']) = mid ++ Foot k :: above ++ [UpdateOut]).
    { assert (Hl : length (map l_kind lo) = length low) by (rewrite map_length; exact Llo). clear -Kl' Hl. revert low Kl' Hl. induction (map l_kind lo) as [|a l IH]; intros [|b low] Kl' Hl; try discriminate; [exact Kl'|].
      cbn in Kl'. injection Kl' as _ Kl'. apply (IH low Kl'). cbn in Hl. lia. }
    rewrite map_app in Kp. cbn [map] in Kp. change (Foot k :: above ++ [UpdateOut]) with ((Foot k :: above) ++ [UpdateOut]) in Kp. rewrite app_assoc in Kp. apply app_inj_tail in Kp. destruct Kp as [Kp _].
    apply map_split in Kp. destruct Kp as (la & l & lb & -> & E1 & E2 & E3). exists la, l, lb. split; [reflexivity|]. split; [rewrite <- E1, map_length; reflexivity|]. auto. }
  destruct Sq as (la & l & lb & -> & Lla & Kl0 & Klb).
  assert (Ml : l_msg l = Some m).
  { rewrite (Msg' (length low + length mid)%nat l).
    - rewrite latest_snoc in La. exact La.
    - rewrite nth_error_app2 by lia. rewrite <- app_assoc. replace (length low + length mid - length lo)%nat with (length la) by lia. rewrite nth_error_app2, Nat.sub_diag by lia. reflexivity. }
  set (parent := top p la). 
  rewrite <- app_assoc in Set'. cbn [app] in Set'. apply settled_suffix in Set'. fold p in Set'. apply settled_suffix in Set'. fold parent in Set'. destruct Set' as [Sl Sb].
  destruct Pre' as [Pre1 _ _]. rewrite <- app_assoc in Pre1. cbn [app] in Pre1.
  assert (Pall : forall low' rest', lo ++ la ++ l :: lb ++ [u'] = low' ++ rest' -> Forall (layer_pre ang (top base low')) rest' /\ wf (top base low') /\ same_dims base (top base low')).
  { intros low' rest' E0. rewrite E0 in Pre1. apply Forall_app in Pre1. destruct Pre1 as [Q1 Q2]. destruct (top_dims ang low' base Q1 W) as [T1 T2]. split; [|split; assumption].
    eapply Forall_impl; [|exact Q2]. intros y. apply layer_pre_dims. exact T2. }
  destruct (Pall (lo ++ la) (l :: lb ++ [u']) ltac:(rewrite <- app_assoc; reflexivity)) as (P1 & Wp & Dp). rewrite top_app in P1, Wp, Dp. fold p parent in P1, Wp, Dp.
  pose proof (Forall_inv P1) as Ll. pose proof (Forall_inv_tail P1) as Plb. apply Forall_app in Plb. destruct Plb as [Plb _].
  pose proof Ll as (Wl & Dl & _ & _ & _ & Kok & Mok). destruct (Mok m Ml) as (Ggm & Mw). rewrite Kl0 in Kok. cbn in Kok.
  destruct (generate_total k (o_grid m) parent Ggm Kok Wp) as (d & Ed & Wd & Dd).
  exists n, ps, n', upd, parent, d. split; [exact E|]. split; [exact Es|]. split; [reflexivity|]. split; [exact Wp|]. split; [exact Dp|]. split; [exact (Mok m Ml)|]. split; [exact Ed|].
  split. { intros q Q. destruct (A q Q) as [A1 _]. apply (same_dims_in_map p base q (same_dims_sym _ _ Dt)). exact A1. }
  intros q Iq Q. assert (Iqp : in_map p q) by (apply (same_dims_in_map base p q Dt); exact Iq). assert (Iqa : in_map parent q) by (apply (same_dims_in_map base parent q Dp); exact Iq).
  assert (Rl : in_region (l_region l) q).
  { apply Forall_app in Hd. destruct Hd as [_ Hd]. rewrite <- app_assoc in Hd. apply Forall_app in Hd. destruct Hd as [_ Hd]. apply Forall_inv in Hd.
    apply (Hd ltac:(rewrite Kl0; discriminate) m q Ml Iq Q). }
  assert (Iu : in_update upd q). { apply B; [exact Iqp|]. right. exists l. split; [apply in_or_app; right; left; reflexivity|exact Rl]. }
  split; [exact Iu|]. intros Pd. destruct (A q Iu) as [_ ->]. rewrite top_app. fold parent. cbn [top].
  assert (Eq : peek (l_over l) q = peek d q).
  { pose proof (Sl q Iqa (or_introl Rl)) as Sh. unfold shows in Sh. rewrite Kl0, Ml, Fr in Sh. destruct Sh as (d2 & E2 & ->). congruence. }
  rewrite <- Eq. apply (top_raises ang q lb (l_over l)).
  - exact Wl.
  - eapply Forall_impl; [|exact Plb]. intros y. apply layer_pre_dims. apply same_dims_sym. exact Dl.
  - clear -Sb. revert Sb. generalize (l_over l). induction lb as [|y lb IH]; intros p; [intros _; exact I|]. intros [S0 S]. split; [exact S0|]. apply IH. exact S.
  - apply Forall_forall. intros y Hy. rewrite Forall_forall in Hab. apply Hab. rewrite <- Klb. apply List.in_map. exact Hy.
  - apply (same_dims_in_map parent _ q (same_dims_sym _ _ Dl)). exact Iqa.
  - (* the areas grow towards the output *)
    intros y Hy. exact (Gr la l lb q y eq_refl Iqp Rl Hy).
  - rewrite Eq. exact Pd.
Qed.
