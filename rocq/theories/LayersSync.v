(** The incremental update protocol: lemmas for C26 and C27 (theorems are in LayersProps.v). *)
From Verif Require Import Common CSpace CSpaceProps Inflate InflateProofs InflateProps Layers LayersProofs LayersRun.
Local Open Scope Z_scope.

(** Area of a message in map cells. *)
Definition in_rect (m : omsg) (q : cell) : Prop :=
  let '(x, y, a) := q in gox (o_grid m) <= x < gox (o_grid m) + o_w m /\ goy (o_grid m) <= y < goy (o_grid m) + o_h m.
(** Drawing the message changes no cell outside its area. *)
Definition confined (k : fcfg) (m : omsg) : Prop :=
  forall p d q, wf p -> generate k (o_grid m) p = Ok d -> in_map p q -> ~ in_rect m q -> peek d q = peek p q.

(** A message of the map's resolution and a template of at most one cell. *)
Lemma confined_small k m : msg_ok m -> 0 <= f_r k <= 1 -> gsame (o_grid m) = true -> gup (o_grid m) = 1 ->
  o_w m = gw (o_grid m) -> o_h m = gh (o_grid m) -> confined k m.
Proof.
  intros ((Gw & GL & GS) & _ & _) R Sm Up Ow Oh p d q W E I N. specialize (GS Sm).
  destruct (generate_ok k (o_grid m) ltac:(lia) Gw GL p W) as (d2 & E2 & _ & _ & H). rewrite E in E2. injection E2 as <-.
  destruct (H q I) as (v & V1 & V2 & C1 & C2). destruct q as [[x y] z]. unfold in_rect in N. rewrite Ow, Oh in N.
  set (g := o_grid m) in *.
  assert (NT : ~ clear_target k g p (x, y, z)).
  { intros (_ & i & xp & yp & Ii & _ & X & Y & Hx & Hy & -> & ->). rewrite !GS, Up in *. destruct (index_coords g Gw i Ii). lia. }
  specialize (V2 NT). subst v. destruct C2 as (C2 & _ & C3).
  - intros (_ & U & _). destruct U as (i & Ii & Ex & Ey & _). unfold gposx, gposy in *. rewrite !GS in *. destruct (index_coords g Gw i Ii). lia.
  - destruct C3 as [C3|(i & Ii & _ & _ & C3)]; [assumption|]. exfalso. destruct (index_coords g Gw i Ii) as (Bx & By & _).
    unfold gposx, gposy in C3. rewrite !GS in C3. destruct C3 as [(_ & -> & -> & _)|(_ & A & _)]; [lia|].
    unfold allowed, the_range in A. rewrite Sm in A. unfold mask_bound in A.
    destruct (Z.eqb_spec (i mod gw g) 0), (Z.eqb_spec (i mod gw g) (gw g - 1)), (Z.eqb_spec (i / gw g) 0), (Z.eqb_spec (i / gw g) (gh g - 1));
    repeat match goal with H : context [if ?b then _ else _] |- _ => destruct b end; lia.
Qed.

Lemma Forall2_length {A B} (R : A -> B -> Prop) l l' : Forall2 R l l' -> length l = length l'.
Proof. induction 1; cbn; congruence. Qed.

(** ** The last two layers *)
Definition linked (x u : layer) : Prop := l_kind x = StopProp \/ l_oprev u = l_prev x.
Definition held (p : cmap) (x : layer) (r : region) : Prop :=
  forall m, l_msg x = Some m -> forall q, in_map p q -> in_rect m q -> in_region (l_region x) q \/ in_region r q.
Definition draws_inside (x : layer) : Prop := forall k m, l_kind x = Foot k -> l_msg x = Some m -> confined k m.
Definition output (k : kind) : bool := match k with StaticOut | UpdateOut => true | _ => false end.
Definition same_at (p : cmap) (x x' : layer) (upd : update) : Prop :=
  forall q, in_map p q -> in_update upd q \/ peek (l_over x') q = peek (l_over x) q.

Record tail_done (p : cmap) (r : region) (out : bool) (x u x' u' : layer) (upd : update) : Prop := {
  td_linked : linked x' u';
  td_held : held p x' empty_region;
  td_data : forall q, in_map p q -> in_update upd q -> upd_cell upd (fst (fst q)) (snd (fst q)) (snd q) = peek (l_over x') q;
  td_same : same_at p x x' upd;
  td_prev : forall q, in_map p q -> in_region (l_oprev u) q -> in_update upd q;
  td_cover : forall q, in_map p q -> in_region r q -> in_region (l_oprev u') q;
  td_conf : same_conf x x';
  td_kind : l_kind u' = l_kind u }.

Lemma in_full p q : in_map p q -> in_region (Region 0 0 0 (cw p) (ch p) (ca p) 0) q.
Proof. destruct q as [[x y] z]. cbn. lia. Qed.

Lemma tail_ok a p r out x u : wf p -> ca p = a -> 0 < a -> layer_pre a p x -> layer_pre a p u ->
  l_kind u = UpdateOut -> l_region u = empty_region -> output (l_kind x) = false ->
  passed a p r -> zero_size r = false -> linked x u -> held p x r -> draws_inside x ->
  exists x' u' upd, chain p r out [x; u] = Ok ([x'; u'], if out then [PubUpdate upd] else []) /\ tail_done p r out x u x' u' upd.
Proof.
  intros W Ha Pa Lx Lu Ku Ru Kx Pr Zr Lk Hd Dr.
  assert (Ux : l_kind x = UpdateOut -> l_region x = empty_region) by (intros E; rewrite E in Kx; discriminate).
  destruct (entry_ok a p r out x W Ha Pa Lx Ux Pr (or_intror Zr)) as (x' & r' & out' & ps & Ex & Lx' & Sx & Cx & Px & _ & _ & Zx).
  assert (Nx : l_kind x <> UpdateOut) by (intros E; rewrite E in Kx; discriminate). specialize (Zx Nx Zr).
  pose proof Lx as (Wo & Do & Tr & Tp & To & K & M). destruct Pr as [Tr2 Pr]. pose proof W as (Hw & Hh & Hc & _).
  destruct (reg_facts a p (l_region x) r W Ha Pa Tr Tr2) as (Treg & Preg & X0 & Y0 & Ireg & Zreg).
  set (reg := normalize (merge (l_region x) r) (cw p) (ch p)) in *.
  assert (Zreg' : zero_size reg = false). { apply Zreg; [assumption|]. destruct Pr as [Pr|Pr]; [congruence|assumption]. }
  assert (Tnow : tall a (merge reg (l_prev x))) by (apply tall_merge; assumption).
  (* facts about x' *)
  assert (Hregr : forall q, in_map p q -> in_region (l_region x) q \/ in_region r q -> in_region reg q).
  { intros q I H. apply Ireg; [assumption|]. apply merge_superset; [apply Tr|apply Tr2|assumption]. }
  assert (FX : out' = out /\ ps = [] /\ fits p r' /\
     (l_kind x = StopProp /\ (forall q, in_map p q -> in_region r' q) /\ (forall q, in_map p q -> in_region (l_region x') q) \/
      l_kind x <> StopProp /\ r' = reg /\ l_region x' = reg /\ l_prev x' = reg /\
      forall q, in_map p q -> ~ in_region (merge reg (l_prev x)) q -> peek (l_over x') q = peek (l_over x) q)).
  { assert (Fr : fits p r'). { destruct Px as [_ [Px|Px]]; [congruence|assumption]. }
    unfold entry in Ex. fold reg in Ex.
    destruct (bitblt_ok (merge reg (l_prev x)) (l_over x) p Wo W Do (proj1 (proj2 Tnow))) as (ov & E & Wv & Dv & Pv). rewrite E in Ex. cbn [bind snd] in Ex.
    destruct (l_kind x) as [k|c| | |] eqn:EK; try discriminate Kx.
    - match type of Ex with bind ?d _ = _ => destruct d as [dd|] eqn:Ed end; [|discriminate]. cbn [bind] in Ex. injection Ex as <- <- <- <-.
      split; [reflexivity|]. split; [reflexivity|]. split; [assumption|]. right. split; [discriminate|]. cbn [l_region l_prev l_over].
      split; [reflexivity|]. split; [reflexivity|]. split; [reflexivity|].
      intros q I N. rewrite <- (proj2 (Pv q I) N). destruct (l_msg x) as [m|] eqn:Em; [|injection Ed as <-; reflexivity].
      destruct (o_frame m); [|injection Ed as <-; reflexivity].
      apply (Dr k m EK Em ov dd q Wv Ed); [apply (same_dims_in_map ov p q Dv); assumption|].
      intros Q. apply N. apply merge_superset; [apply Treg|apply Tp|]. left. apply Hregr; [assumption|]. apply (Hd m Em q I Q).
    - destruct (handle_unknown_ok c reg ov Wv X0 Y0) as (d & Ed & Wd & Dd & Sd). { apply Treg. }
      rewrite Ed in Ex. cbn [bind] in Ex. injection Ex as <- <- <- <-.
      split; [reflexivity|]. split; [reflexivity|]. split; [assumption|]. right. split; [discriminate|]. cbn [l_region l_prev l_over].
      split; [reflexivity|]. split; [reflexivity|]. split; [reflexivity|].
      intros q I N. rewrite <- (proj2 (Pv q I) N). apply Sd; [apply (same_dims_in_map ov p q Dv); assumption|].
      intros Q. apply N. apply merge_superset; [apply Treg|apply Tp|auto].
    - injection Ex as <- <- <- <-. split; [reflexivity|]. split; [reflexivity|]. split; [assumption|]. left. split; [reflexivity|]. split; intros q I; apply in_full; assumption. }
  destruct FX as (-> & -> & Fr' & FX).
  cbn [chain]. rewrite Ex. cbn [bind].
  (* u *)
  pose proof Lx' as (Wl & Dl & _). set (p2 := l_over x') in *. assert (Dl' := same_dims_sym _ _ Dl).
  assert (Ha2 : ca p2 = a) by (destruct Dl as (_ & _ & ->); assumption).
  assert (Reg2 : normalize (merge (l_region u) r') (cw p2) (ch p2) = r').
  { rewrite Ru. unfold merge. rewrite Zx. cbn [zero_size empty_region rw rh ra Z.eqb orb]. apply normalize_fits. eapply fits_dims; eassumption. }
  pose proof Lu as (Wu & Du & Tru & Tpu & Tou & Kou & Mu).
  unfold entry. rewrite Reg2, Ku.
  assert (Tr' : tall a r') by apply Px.
  assert (Tn2 : tall a (merge r' (l_prev u))) by (apply tall_merge; assumption).
  destruct (bitblt_ok (merge r' (l_prev u)) (l_over u) p2 Wu Wl (same_dims_trans _ _ _ Du Dl') (proj1 (proj2 Tn2))) as (ov & E & Wv & Dv & Pv). rewrite E. cbn [bind snd].
  destruct (gen_update_ok a p2 r' (l_oprev u) Wl Ha2 Pa Tr' Tou (fits_dims _ _ _ Dl' Fr') (or_intror Zx)) as (upd & Eu & _ & Hu).
  destruct (Hu Zx) as (Hu1 & Hu2). rewrite Eu. cbn [bind fst snd app].
  do 2 eexists. exists upd. split; [destruct out; reflexivity|]. clear E.
  assert (J : forall q, in_map p q -> in_map p2 q) by (intros q; apply (same_dims_in_map p p2 q Dl')).
  split; cbn [l_oprev l_kind l_over l_region]; try reflexivity.
  - destruct FX as [(EK & _)|(EK & -> & _ & E & _)]; [left; rewrite <- (proj1 Cx); exact EK|right; cbn [l_oprev]; symmetry; exact E].
  - intros m Em q I Q. left. destruct FX as [(_ & _ & F)|(_ & _ & -> & _)]; [apply F; assumption|].
    apply Hregr; [assumption|]. apply (Hd m); [destruct Cx as [_ ->]; exact Em|assumption..].
  - intros q I Q. apply (Hu2 q Q).
  - intros q I. destruct FX as [(_ & F & _)|(EK & -> & _ & _ & F)].
    + left. apply Hu1; [apply J; assumption|]. apply merge_superset; [apply Tr'|apply Tou|]. left. apply F. assumption.
    + destruct Lk as [Lk|Lk]; [congruence|]. rewrite Lk in *.
      assert (D : in_region (merge reg (l_prev x)) q \/ ~ in_region (merge reg (l_prev x)) q).
      { destruct q as [[qx qy] qz]. cbn. lia. }
      destruct D as [D|D]; [left; apply Hu1; [apply J; assumption|exact D]|right; apply F; assumption].
  - intros q I Q. apply Hu1; [apply J; assumption|]. apply merge_superset; [apply Tr'|apply Tou|]. right. assumption.
  - intros q I Q. destruct FX as [(_ & F & _)|(_ & -> & _)]; [apply F; assumption|]. apply Hregr; auto.
  - exact Cx.
  - symmetry; exact Ku.
Qed.

Lemma chain_tail a pre : forall p r out x u, wf p -> ca p = a -> 0 < a -> chain_pre a p (pre ++ [x; u]) ->
  l_kind u = UpdateOut -> Forall (fun l => output (l_kind l) = false) (pre ++ [x]) ->
  passed a p r -> zero_size r = false -> linked x u ->
  (forall r', (forall q, in_map p q -> in_region r q -> in_region r' q) -> held p x r') -> draws_inside x ->
  exists pre' x' u' upd, chain p r out (pre ++ [x; u]) = Ok (pre' ++ [x'; u'], if out then [PubUpdate upd] else []) /\
    Forall2 same_conf pre pre' /\ tail_done p r out x u x' u' upd.
Proof.
  induction pre as [|l pre IH]; intros p r out x u W Ha Pa C Ku No P Z Lk Hd Dr.
  - cbn [app] in *. apply chain_pre_cons in C. destruct C as (Lx & _ & _ & C). apply chain_pre_cons in C. destruct C as (Lu & Uu & _ & _).
    inversion No; subst. destruct (tail_ok (ca p) p r out x u W eq_refl Pa Lx Lu Ku (Uu Ku)) as (x' & u' & upd & E & T); try assumption.
    { apply Hd. auto. }
    exists [], x', u', upd. split; [exact E|]. split; [constructor|exact T].
  - cbn [app] in *. apply chain_pre_cons in C. destruct C as (L & U & UL & C). inversion No as [|? ? No1 No2]; subst.
    set (a := ca p) in *.
    destruct (entry_ok a p r out l W eq_refl Pa L U P (or_intror Z)) as (l' & r' & out' & ps & E & L' & S' & K' & P' & U' & F' & Z').
    assert (NU : l_kind l <> UpdateOut) by (intros E2; rewrite E2 in No1; discriminate).
    assert (EX : out' = out /\ ps = [] /\ forall q, in_map p q -> in_region r q -> in_region r' q).
    { pose proof L as (Wo & Do & Tr & Tp & To & K & M). destruct P as [Tr2 Pr].
      destruct (reg_facts a p (l_region l) r W eq_refl Pa Tr Tr2) as (Treg & Preg & X0 & Y0 & Ireg & Zreg).
      clear -E No1 Ireg Tr Tr2. unfold entry in E. set (reg := normalize (merge (l_region l) r) (cw p) (ch p)) in *.
      assert (H : forall q, in_map p q -> in_region r q -> in_region reg q).
      { intros q I Q. apply Ireg; [assumption|]. apply merge_superset; [apply Tr|apply Tr2|auto]. }
      destruct (bitblt _ _ _) as [b|]; [|discriminate]. cbn [bind] in E.
      destruct (l_kind l); try discriminate.
      - match type of E with bind ?d _ = _ => destruct d as [dd|] end; [|discriminate]. cbn [bind] in E. injection E as <- <- <- <-. auto.
      - match type of E with bind ?d _ = _ => destruct d as [dd|] end; [|discriminate]. cbn [bind] in E. injection E as <- <- <- <-. auto.
      - injection E as <- <- <- <-. split; [reflexivity|]. split; [reflexivity|]. intros q I _. apply in_full. assumption. }
    destruct EX as (-> & -> & EX). cbn [chain]. rewrite E. cbn [bind].
    pose proof L' as (Wl & Dl & _). assert (Dl' := same_dims_sym _ _ Dl).
    assert (J : forall q, in_map (l_over l') q -> in_map p q) by (intros q; apply (same_dims_in_map (l_over l') p q Dl)).
    assert (J' : forall q, in_map p q -> in_map (l_over l') q) by (intros q; apply (same_dims_in_map p (l_over l') q Dl')).
    destruct (IH (l_over l') r' out x u Wl) as (pre' & x' & u' & upd & E2 & F2 & T2); try assumption.
    + destruct Dl as (_ & _ & ->). reflexivity.
    + eapply chain_pre_dims; eassumption.
    + eapply passed_dims; eassumption.
    + apply Z'; assumption.
    + intros r2 H m Em q I Q. apply (Hd r2 (fun q' I' Q' => H q' (J' q' I') (EX q' I' Q')) m Em q); auto.
    + rewrite E2. cbn [bind fst snd app]. exists (l' :: pre'), x', u', upd. split; [reflexivity|]. split; [constructor; assumption|].
      destruct T2 as [t1 t2 t3 t4 t5 t6 t7 t8]. split; try assumption.
      * intros m Em q I Q. apply (t2 m Em q); auto.
      * intros q I Q. apply t3; auto.
      * intros q I. apply t4; auto.
      * intros q I Q. apply t5; auto.
      * intros q I Q. apply t6; auto.
Qed.

(** ** Overlays before the base map (C27) *)
Definition buffer (l : list (nat * omsg)) (n : node) : node := Node (n_stack n) l.

Lemma overlay_any_buffer i m n q : 1 <= cw (s_base (n_stack n)) -> 1 <= ch (s_base (n_stack n)) ->
  cb_overlay i m (buffer q n) = (do c <- cb_overlay i m n; Ok (buffer q (fst c), snd c)).
Proof.
  intros Hw Hh. unfold cb_overlay, buffer. cbn [n_stack]. rewrite (proj2 (Z.ltb_ge _ _)), (proj2 (Z.ltb_ge _ _)) by lia. cbn [orb].
  destruct (overlay_at _ _ _ _) as [[? ?]|]; reflexivity.
Qed.
Lemma overlay_base i m n n' ps : 1 <= cw (s_base (n_stack n)) -> 1 <= ch (s_base (n_stack n)) ->
  cb_overlay i m n = Ok (n', ps) -> s_base (n_stack n') = s_base (n_stack n) /\ n_buf n' = n_buf n.
Proof.
  intros Hw Hh. unfold cb_overlay. rewrite (proj2 (Z.ltb_ge _ _)), (proj2 (Z.ltb_ge _ _)) by lia. cbn [orb].
  destruct (overlay_at _ _ _ _) as [[? ?]|]; cbn [bind]; [|discriminate]. intros E. injection E as <- <-. auto.
Qed.
Definition as_event (im : nat * omsg) : event := EvOverlay (fst im) (snd im).
Lemma replay_is_run q : forall b n, 1 <= cw (s_base (n_stack n)) -> 1 <= ch (s_base (n_stack n)) ->
  replay q (buffer b n) = (do c <- run n (map as_event q); Ok (buffer b (fst c), snd c)).
Proof.
  induction q as [|[i m] q IH]; intros b n Hw Hh; [reflexivity|].
  cbn [map run replay step as_event fst snd]. unfold buffer at 1 2. cbn [n_stack].
  rewrite (proj2 (Z.ltb_ge _ _)), (proj2 (Z.ltb_ge _ _)) by lia. cbn [orb].
  rewrite (overlay_any_buffer i m n b Hw Hh). destruct (cb_overlay i m n) as [[n1 p1]|] eqn:E; cbn [bind fst snd]; [|reflexivity].
  destruct (overlay_base i m n n1 p1 Hw Hh E) as [E1 E2]. rewrite IH by (rewrite E1; assumption).
  destruct (run n1 (map as_event q)) as [[n2 p2]|]; reflexivity.
Qed.
Lemma run_overlays_base n es n' ps : 1 <= cw (s_base (n_stack n)) -> 1 <= ch (s_base (n_stack n)) ->
  run n (map as_event es) = Ok (n', ps) -> n_buf n' = n_buf n.
Proof.
  revert n n' ps. induction es as [|[i m] es IH]; intros n n' ps Hw Hh; cbn [map run step as_event fst snd].
  - intros E. injection E as <- <-. reflexivity.
  - destruct (cb_overlay i m n) as [[n1 p1]|] eqn:E; cbn [bind fst snd]; [|discriminate].
    destruct (overlay_base i m n n1 p1 Hw Hh E) as [E1 E2]. destruct (run n1 (map as_event es)) as [[n2 p2]|] eqn:E3; cbn [bind fst snd]; [|discriminate].
    intros E4. injection E4 as <- <-. rewrite <- E2. apply (IH n1 n2 p2); try (rewrite E1; assumption). assumption.
Qed.
Lemma run_buffers root ang ks es : run (new_node root ang ks) (map as_event es) = Ok (buffer es (new_node root ang ks), []).
Proof.
  assert (H : forall b, run (buffer b (new_node root ang ks)) (map as_event es) = Ok (buffer (b ++ es) (new_node root ang ks), [])).
  { induction es as [|[i m] es IH]; intros b; cbn [map run step as_event fst snd].
    - rewrite app_nil_r. reflexivity.
    - unfold cb_overlay at 1. unfold buffer at 1 2 3 4. cbn [n_stack new_node s_base cw Z.ltb Z.compare orb bind fst snd n_buf].
      change (Node (Stack root ang (Cmap 0 0 0 []) empty_region (map new_layer ks)) (b ++ [(i, m)])) with (buffer (b ++ [(i, m)]) (new_node root ang ks)).
      rewrite IH. cbn [bind fst snd app]. rewrite <- app_assoc. reflexivity. }
  specialize (H []). exact H.
Qed.


(** ** An overlay message to one of the layers before the output *)
Definition meets_map (p : cmap) (m : omsg) : Prop :=
  0 < o_w m /\ 0 < o_h m /\ gox (o_grid m) < cw p /\ 0 < gox (o_grid m) + o_w m /\ goy (o_grid m) < ch p /\ 0 < goy (o_grid m) + o_h m.

Lemma merge_self r : zero_size r = false -> merge r r = r.
Proof. intros Z. unfold merge. rewrite Z. rewrite !Z.ltb_irrefl. destruct r. cbn. f_equal; lia. Qed.

Record tail_overlaid (p : cmap) (x u x' u' : layer) (upd : update) : Prop := {
  to_linked : linked x' u'; to_held : held p x' empty_region; to_draws : draws_inside x';
  to_data : forall q, in_map p q -> in_update upd q -> upd_cell upd (fst (fst q)) (snd (fst q)) (snd q) = peek (l_over x') q;
  to_same : same_at p x x' upd;
  to_prev : forall q, in_map p q -> in_region (l_oprev u) q -> in_update upd q }.

Lemma overlay_tail a m x u : msg_ok m -> l_kind u = UpdateOut -> linked x u -> draws_inside x -> forall i pre p,
  wf p -> ca p = a -> 0 < a -> 1 <= cw p -> 1 <= ch p -> chain_pre a p (pre ++ [x; u]) -> (i <= length pre)%nat -> 
  Forall (fun l => output (l_kind l) = false) (pre ++ [x]) ->
  (forall k, l_kind x = Foot k -> i = length pre -> confined k m) -> meets_map p m -> held p x empty_region ->
  exists pre' x' u' upd, overlay_at p i m (pre ++ [x; u]) = Ok (pre' ++ [x'; u'], [PubUpdate upd]) /\ length pre' = length pre /\
    tail_overlaid p x u x' u' upd.
Proof.
  intros Mo Ku Lk Dr. induction i as [|i IH]; intros pre p W Ha Pa Pw Ph C Hi No Nt Me Hd.
  - set (r := Region (gox (o_grid m)) (goy (o_grid m)) 0 (o_w m) (o_h m) (ca p) (o_stamp m)).
    set (r0 := normalize r (cw p) (ch p)).
    assert (Tr : tall a r). { destruct Mo as (_ & m1 & m2). split; [unfold sized, r; cbn; lia|]. cbn. lia. }
    assert (Zr : zero_size r = false). { apply zero_size_false; [apply Tr|]. unfold r. cbn. destruct Me. lia. }
    pose proof (reg_facts a p r r W Ha Pa Tr Tr) as RF. cbv zeta in RF. rewrite (merge_self r Zr) in RF. fold r0 in RF.
    destruct RF as (T1 & P1 & _ & _ & I1 & _).
    assert (Zr0 : zero_size r0 = false).
    { apply zero_size_false; [apply T1|].
      assert (Iq : in_region r0 (Z.max 0 (gox (o_grid m)), Z.max 0 (goy (o_grid m)), 0)).
      { apply I1; [cbn; destruct Me; lia|]. unfold r. cbn. destruct Me. lia. }
      cbn in Iq. lia. }
    assert (F0 : fits p r0). { destruct P1 as [_ [?|?]]; [congruence|assumption]. }
    assert (N0 : normalize (merge r0 r0) (cw p) (ch p) = normalize (merge r r) (cw p) (ch p)).
    { rewrite !merge_self by assumption. rewrite normalize_fits by assumption. reflexivity. }
    set (upd_l := fun (rr : region) (l : layer) => Layer (l_kind l) (l_over l) rr (l_prev l) (l_oprev l) (Some m)).
    assert (EC : forall l ls, chain p r true (upd_l r l :: ls) = chain p r0 true (upd_l r0 l :: ls)).
    { intros l ls. cbn [chain]. unfold entry. cbn [upd_l l_region l_prev l_over l_kind l_msg l_oprev]. rewrite N0. reflexivity. }
    assert (CL : forall l ls, l_kind l <> UpdateOut -> chain_pre a p (l :: ls) -> chain_pre a p (upd_l r0 l :: ls)).
    { intros l ls EK Cp. apply chain_pre_cons in Cp. destruct Cp as (L & U & UL & [c1 c2 c3]).
      split; [constructor; [|assumption]|split; [intros E; cbn in E; congruence|assumption]|constructor; [intros E; cbn in E; congruence|assumption]].
      destruct L as (A1 & A2 & A3 & A4 & A5 & A6 & A7). unfold layer_pre, upd_l. cbn [l_over l_region l_prev l_oprev l_kind l_msg].
      repeat (split; [assumption|]). intros m' E. injection E as <-. assumption. }
    assert (Rect : forall q, in_map p q -> in_rect m q -> in_region r0 q).
    { intros [[qx qy] qz] I Q. apply I1; [assumption|]. cbn in I, Q |- *. unfold r. cbn. lia. }
    destruct pre as [|l pre].
    + cbn [app] in *. cbn [overlay_at]. fold r. change (Layer (l_kind x) (l_over x) r (l_prev x) (l_oprev x) (Some m)) with (upd_l r x). rewrite EC.
      assert (Nx : l_kind x <> UpdateOut). { inversion No as [|? ? N1 _]; subst. intros E; rewrite E in N1; discriminate. }
      destruct (chain_tail a [] p r0 true (upd_l r0 x) u W Ha Pa (CL _ _ Nx C) Ku) as (pre' & x' & u' & upd & E & F & T); try assumption.
      * inversion No; subst. constructor; [assumption|constructor].
      * intros r' H m2 Em q I Q. injection Em as <-. left. cbn. auto.
      * intros k m2 Ek Em. injection Em as <-. apply Nt; [exact Ek|reflexivity].
      * exists pre', x', u', upd. cbn [app] in E. split; [exact E|]. split; [inversion F; reflexivity|].
        destruct T as [t1 t2 t3 t4 t5 t6 t7 t8]. split; try assumption.
        intros k m2 Ek Em. destruct t7 as [t7 t7']. cbn in t7, t7'. rewrite Em in t7'. injection t7' as <-. apply Nt; [congruence|reflexivity].
    + cbn [app] in *. cbn [overlay_at]. fold r. change (Layer (l_kind l) (l_over l) r (l_prev l) (l_oprev l) (Some m)) with (upd_l r l). rewrite EC.
      assert (Nx : l_kind l <> UpdateOut). { inversion No as [|? ? N1 _]; subst. intros E; rewrite E in N1; discriminate. }
      assert (No' : Forall (fun l => output (l_kind l) = false) ((upd_l r0 l :: pre) ++ [x])) by (inversion No; subst; constructor; assumption).
      destruct (chain_tail a (upd_l r0 l :: pre) p r0 true x u W Ha Pa (CL _ _ Nx C) Ku No') as (pre' & x' & u' & upd & E & F & T); try assumption.
      * intros r' H m2 Em q I Q. left. destruct (Hd m2 Em q I Q) as [?|Q2]; [assumption|]. destruct q as [[? ?] ?]. cbn in Q2. lia.
      * exists pre', x', u', upd. cbn [app] in E. split; [exact E|]. split; [symmetry; exact (Forall2_length _ _ _ F)|].
        destruct T as [t1 t2 t3 t4 t5 t6 t7 t8]. split; try assumption.
        intros k m2 Ek Em. apply Dr; [rewrite (proj1 t7)|rewrite (proj2 t7)]; assumption.
  - destruct pre as [|l pre]; cbn [length] in Hi; [lia|]. cbn [app overlay_at] in *.
    apply chain_pre_cons in C. destruct C as (L & _ & _ & C). pose proof L as (Wl & Dl & _). assert (Dl' := same_dims_sym _ _ Dl).
    assert (J : forall q, in_map (l_over l) q -> in_map p q) by (intros q; apply (same_dims_in_map (l_over l) p q Dl)).
    assert (J' : forall q, in_map p q -> in_map (l_over l) q) by (intros q; apply (same_dims_in_map p (l_over l) q Dl')).
    inversion No as [|? ? N1 N2]; subst. pose proof Dl as (d1 & d2 & d3).
    destruct (IH pre (l_over l) Wl) as (pre' & x' & u' & upd & E & F & T); try assumption; try lia.
    + eapply chain_pre_dims; eassumption.
    + intros k Ek El. apply Nt; [assumption|cbn [length]; lia].
    + unfold meets_map in *. rewrite d1, d2. assumption.
    + intros m2 Em q I Q. apply (Hd m2 Em q); auto.
    + rewrite E. cbn [bind fst snd]. exists (l :: pre'), x', u', upd. split; [reflexivity|]. split; [cbn; congruence|].
      destruct T as [t1 t2 t3 t4 t5 t6]. split; try assumption.
      * intros m2 Em q I Q. apply (t2 m2 Em q); auto.
      * intros q I Q. apply t4; auto.
      * intros q I. apply t5; auto.
      * intros q I Q. apply t6; auto.
Qed.

Lemma last_base_in es b : last_base es = Some b -> In (EvBase b) es.
Proof.
  induction es as [|e es IH]; cbn; [discriminate|]. destruct (last_base es) as [b2|]; [intros E; right; apply IH; exact E|].
  destruct e; [|discriminate]. intros E. injection E as ->. left. reflexivity.
Qed.

Section Sync.
  Variables (root : fcfg) (ang : Z) (ks : list kind).
  Hypothesis Hroot : 0 <= f_r root.
  Hypothesis Hang : 0 < ang.
  Hypothesis Hks : Forall kind_ok ks.
  Hypothesis Hlast : forall pre post, ks = pre ++ UpdateOut :: post -> post = [].

  Lemma buffered_base b q es : good_base b ->
    run (new_node root ang ks) (map as_event q ++ EvBase b :: es) = run (new_node root ang ks) (EvBase b :: map as_event q ++ es).
  Proof.
    intros Gb. rewrite run_app, run_buffers. cbn [bind fst snd].
    destruct (set_base_ok root ang ks Hroot Hang Hks Hlast _ _ b (new_can root ang ks) Gb) as (s & ps & E & R).
    destruct (rd_dims _ _ _ _ _ _ R) as (D1 & D2 & _). destruct Gb as (G1 & G2 & _).
    cbn [run step]. unfold cb_map. unfold buffer at 1. cbn [n_stack]. rewrite E. cbn [bind fst snd].
    cbn [n_buf new_node replay bind fst snd]. rewrite app_nil_r.
    change (Node s (n_buf (buffer q (Node (Stack root ang (Cmap 0 0 0 []) empty_region (map new_layer ks)) [])))) with (buffer q (Node s [])).
    cbn [buffer n_buf]. change (Node s q) with (buffer q (Node s [])).
    rewrite replay_is_run by (cbn [n_stack]; lia). cbn [n_stack].
    rewrite run_app. destruct (run (Node s []) (map as_event q)) as [[n2 p2]|] eqn:E2; cbn [bind fst snd]; [|reflexivity].
    pose proof (run_overlays_base (Node s []) q n2 p2 ltac:(cbn [n_stack]; lia) ltac:(cbn [n_stack]; lia) E2) as B. cbn [n_buf] in B.
    unfold buffer. cbn [n_stack]. replace (Node (n_stack n2) []) with n2 by (destruct n2 as [s2 b2]; cbn in *; congruence).
    destruct (run n2 es) as [[n3 p3]|]; cbn [bind fst snd]; [|reflexivity]. cbn [app]. rewrite app_assoc. reflexivity.
  Qed.

  Lemma split_at_base es b : last_base es = Some b -> exists q b0 es', es = map as_event q ++ EvBase b0 :: es'.
  Proof.
    induction es as [|[b1|i m] es IH]; cbn; [discriminate| |].
    - intros _. exists [], b1, es. reflexivity.
    - destruct (last_base es) as [b2|]; [|discriminate]. intros E. destruct (IH E) as (q & b0 & es' & ->).
      exists ((i, m) :: q), b0, es'. reflexivity.
  Qed.

  (** ** A client of the update messages *)
  Definition in_updateb (u : update) (q : cell) : bool :=
    let '(x, y, a) := q in in_rangeb (u_x u) x (u_x u + u_w u) && in_rangeb (u_y u) y (u_y u + u_h u) && in_rangeb (u_yaw u) a (u_yaw u + u_a u).
  Lemma in_updateb_iff u q : in_updateb u q = true <-> in_update u q.
  Proof. destruct q as [[x y] z]. unfold in_updateb, in_update. rewrite !andb_true_iff, !in_rangeb_iff. tauto. Qed.
  Definition client (c : cell -> Z) (p : pub) : cell -> Z :=
    match p with
    | PubMap m => peek m
    | PubUpdate u => fun q => if in_updateb u q then upd_cell u (fst (fst q)) (snd (fst q)) (snd q) else c q
    end.

  Variable mid : list kind.
  Variable kx : kind.
  Hypothesis Eks : ks = StaticOut :: mid ++ [kx; UpdateOut].
  Hypothesis Hmid : Forall (fun k => output k = false) (mid ++ [kx]).

  Definition meets (b : bmsg) (m : omsg) : Prop :=
    0 < o_w m /\ 0 < o_h m /\ gox (o_grid m) < b_w b /\ 0 < gox (o_grid m) + o_w m /\ goy (o_grid m) < b_h b /\ 0 < goy (o_grid m) + o_h m.
  (** Messages to the last layer draw inside their own area. *)
  Definition neat (e : event) : Prop :=
    match e with EvOverlay i m => forall k, kx = Foot k -> i = length (StaticOut :: mid) -> confined k m | _ => True end.

  Record in_sync (n : node) (c : cell -> Z) : Prop := {
    is_split : exists l0 pre x u, s_layers (n_stack n) = l0 :: pre ++ [x; u] /\ length pre = length mid /\
      linked x u /\ held (s_base (n_stack n)) x empty_region /\ draws_inside x /\
      ((forall q, in_map (s_base (n_stack n)) q -> in_region (l_oprev u) q) \/
       (forall q, in_map (s_base (n_stack n)) q -> c q = peek (l_over x) q)) }.

  Lemma kinds_split (ls : list layer) : map l_kind ls = ks ->
    exists l0 pre x u, ls = l0 :: pre ++ [x; u] /\ l_kind l0 = StaticOut /\ map l_kind pre = mid /\ l_kind x = kx /\ l_kind u = UpdateOut.
  Proof.
    rewrite Eks. destruct ls as [|l0 ls]; [discriminate|]. cbn. intros E. injection E as E0 E.
    apply map_eq_app in E. destruct E as (pre & l2 & -> & E1 & E2). destruct l2 as [|x [|u [|]]]; try discriminate.
    injection E2 as E2 E3. exists l0, pre, x, u. auto.
  Qed.
  Lemma mid_not_output pre x : map l_kind pre = mid -> l_kind x = kx -> Forall (fun l => output (l_kind l) = false) (pre ++ [x]).
  Proof.
    intros E1 E2. assert (H : Forall (fun k => output k = false) (map l_kind (pre ++ [x]))) by (rewrite map_app; cbn; rewrite E1, E2; exact Hmid).
    apply Forall_map in H. exact H.
  Qed.

  (** A base map: the static map is published, the next update message will describe everything. *)
  Lemma base_sync lat s b ls0 : can_base root ang ks lat s -> good_base b -> s_layers s = ls0 ->
    (forall l0 pre x u, ls0 = l0 :: pre ++ [x; u] -> length pre = length mid -> linked x u /\ draws_inside x) ->
    exists s' ps, set_base b s = Ok (s', ps) /\ ready root ang ks b lat s' /\ forall c, in_sync (Node s' []) c.
  Proof.
    intros Cb Gb El Hx. destruct (set_base_ok root ang ks Hroot Hang Hks Hlast lat s b Cb Gb) as (s' & ps & E & R).
    exists s', ps. split; [exact E|]. split; [exact R|]. intros c.
    destruct Cb as [A B C D Ek F]. destruct Gb as (Gw & Gh & GL).
    destruct (kinds_split _ Ek) as (l0 & pre & x & u & Es & K0 & Kp & Kx & Ku).
    destruct (Hx l0 pre x u) as [Lk Dr]; [congruence|rewrite <- Kp, map_length; reflexivity|].
    unfold set_base in E. rewrite A, B, (proj2 (Z.ltb_lt 0 ang) Hang), (proj2 (Z.leb_le _ _)) in E by lia. cbn [andb] in E.
    destruct (base_map_total root (b_w b) (b_h b) ang (b_data b)) as (m & Em & Wm & Mw & Mh & Ma); try assumption; try lia.
    rewrite Em in E. cbn [bind] in E.
    set (full := Region 0 0 0 (b_w b) (b_h b) ang (b_stamp b)) in *.
    set (f := fun l => Layer (l_kind l) m (l_region l) (l_prev l) (l_oprev l) (l_msg l)) in *.
    rewrite Es in E. cbn [map] in E. rewrite map_app in E. cbn [map] in E.
    assert (Tf : tall ang full). { split; [unfold sized, full; cbn; lia|]. cbn. lia. }
    assert (Ff : fits m full). { split; [apply Tf|]. unfold full. cbn. lia. }
    destruct (reg_facts ang m (s_rregion s) full Wm Ma Hang C Tf) as (T1 & P1 & _ & _ & I1 & Z1).
    assert (Zf : zero_size full = false). { apply zero_size_false; [apply Tf|]. cbn. lia. }
    specialize (Z1 Zf Ff). rewrite Mw, Mh in *. set (reg := normalize (merge (s_rregion s) full) (b_w b) (b_h b)) in *.
    assert (Creg : forall q, in_map m q -> in_region reg q).
    { intros q I. apply I1; [assumption|]. apply merge_superset; [apply C|apply Tf|]. right. destruct q as [[qx qy] qz]. cbn in I |- *. rewrite Mw, Mh, Ma in I. lia. }
    assert (Cls : chain_pre ang m (f l0 :: map f pre ++ [f x; f u])).
    { assert (Kok : Forall (fun l => kind_ok (l_kind l)) (s_layers s)).
      { rewrite Forall_forall. intros l Hl. rewrite Forall_forall in Hks. apply Hks. rewrite <- Ek. apply List.in_map. assumption. }
      assert (Ef : f l0 :: map f pre ++ [f x; f u] = map f (s_layers s)) by (rewrite Es; cbn; rewrite map_app; reflexivity).
      rewrite Ef. split.
      - clear -D Kok Wm. induction D as [|l l' (d1 & d2 & d3 & d4 & d5) _ IH]; [constructor|]. inversion Kok; subst.
        constructor; [|auto]. unfold layer_pre. cbn [f l_over l_region l_prev l_oprev l_kind l_msg].
        split; [assumption|]. split; [apply same_dims_refl|]. auto 10.
      - apply (updates_last_kinds ks Hlast). rewrite map_map. cbn. exact Ek.
      - clear -D. induction D as [|l l' (d1 & d2 & d3 & d4 & d5) _ IH]; [constructor|]. constructor; auto. }
    cbn [chain] in E.
    apply chain_pre_cons in Cls. destruct Cls as (L0 & U0 & _ & Cls).
    destruct (entry_ok ang m reg true (f l0) Wm Ma Hang L0 U0 P1 (or_intror Z1)) as (l0' & r' & out' & ps0 & E0 & L0' & _ & _ & P' & _ & _ & Z').
    rewrite E0 in E. cbn [bind] in E.
    assert (X0 : out' = false /\ forall q, in_map m q -> in_region r' q).
    { pose proof L0 as (_ & _ & Tr & _). destruct (reg_facts ang m (l_region (f l0)) reg Wm Ma Hang Tr T1) as (_ & _ & _ & _ & Ireg & _).
      clear -E0 K0 Ireg Tr T1 Creg. unfold entry in E0. destruct (bitblt _ _ _) as [bb|]; [|discriminate]. cbn [bind f l_kind] in E0. rewrite K0 in E0.
      injection E0 as _ <- <- _. split; [reflexivity|]. intros q I. apply Ireg; [assumption|]. apply merge_superset; [apply Tr|apply T1|]. right. apply Creg. assumption. }
    destruct X0 as (-> & X0). pose proof L0' as (Wl & Dl & _). assert (Dl' := same_dims_sym _ _ Dl).
    assert (J : forall q, in_map (l_over l0') q -> in_map m q) by (intros q; apply (same_dims_in_map (l_over l0') m q Dl)).
    assert (J' : forall q, in_map m q -> in_map (l_over l0') q) by (intros q; apply (same_dims_in_map m (l_over l0') q Dl')).
    destruct (chain_tail ang (map f pre) (l_over l0') r' false (f x) (f u) Wl) as (pre' & x' & u' & upd & E2 & F2 & T2); try assumption.
    + destruct Dl as (_ & _ & ->). assumption.
    + eapply chain_pre_dims; eassumption.
    + assert (H := mid_not_output pre x Kp Kx). clear -H. apply Forall_app in H. destruct H as [H1 H2]. apply Forall_app. split.
      * apply Forall_map. exact H1.
      * inversion H2; subst. constructor; [exact H3|constructor].
    + eapply passed_dims; eassumption.
    + apply Z'; [cbn; congruence|exact Z1].
    + intros r2 H m2 Em2 q I Q. right. apply H; [assumption|]. apply X0, J, I.
    + rewrite E2 in E. cbn [bind fst snd] in E. injection E as <- <-. split. exists l0', pre', x', u'. cbn [n_stack s_base s_layers].
      split; [reflexivity|]. split. { rewrite <- (Forall2_length _ _ _ F2), map_length, <- Kp, map_length. reflexivity. }
      destruct T2 as [t1 t2 t3 t4 t5 t6 t7 t8]. split; [assumption|]. split. { intros m2 Em2 q I Q. apply (t2 m2 Em2 q (J' q I) Q). }
      split. { intros k m2 Ek2 Em2. destruct t7 as [t7 t7']. cbn in t7, t7'. apply (Dr k m2); congruence. }
      left. intros q I. apply t6; [apply J', I|]. apply X0, I.
  Qed.

  (** An overlay message whose area meets the map. *)
  Lemma overlay_sync b lat n i m c : ready root ang ks b lat (n_stack n) -> good_base b -> n_buf n = [] ->
    good_event ks (EvOverlay i m) -> neat (EvOverlay i m) -> meets b m -> in_sync n c ->
    exists n' u, cb_overlay i m n = Ok (n', [PubUpdate u]) /\ n_buf n' = [] /\ s_base (n_stack n') = s_base (n_stack n) /\
      ready root ang ks b (fun j => if Nat.eqb i j then Some m else lat j) (n_stack n') /\ in_sync n' (client c (PubUpdate u)) /\
      exists l0 pre x y, s_layers (n_stack n') = l0 :: pre ++ [x; y] /\ length pre = length mid /\
        forall q, in_map (s_base (n_stack n)) q -> client c (PubUpdate u) q = peek (l_over x) q.
  Proof.
    intros R Gb Bf [Hk Mo] Nt Me [(l0 & pre & x & u & Es & Lp & Lk & Hd & Dr & Sy)].
    destruct (ready_overlay root ang ks Hang b lat (n_stack n) i m R Hk Mo) as (ls' & ps & Eo & R2).
    destruct R as [A B C (D1 & D2 & D3) E F G H I J K]. destruct Gb as (G1 & G2 & G3).
    unfold cb_overlay. rewrite (proj2 (Z.ltb_ge _ _)), (proj2 (Z.ltb_ge _ _)) by lia. cbn [orb]. rewrite Eo. cbn [bind fst snd].
    set (p := s_base (n_stack n)) in *.
    destruct (kinds_split _ J) as (l0' & pre0 & x0 & u0 & Es0 & K0 & Kp & Kx & Ku).
    assert (E4 : l0' = l0 /\ pre0 = pre /\ x0 = x /\ u0 = u).
    { rewrite Es in Es0. injection Es0 as -> E5.
      change (pre ++ [x; u]) with (pre ++ [x] ++ [u]) in E5. change (pre0 ++ [x0; u0]) with (pre0 ++ [x0] ++ [u0]) in E5.
      rewrite !app_assoc in E5. apply app_inj_tail in E5. destruct E5 as [E5 ->]. apply app_inj_tail in E5. destruct E5 as [-> ->]. auto. }
    destruct E4 as (-> & -> & -> & ->). clear Es0.
    assert (Hi : exists i', i = S i' /\ (i' <= length pre)%nat).
    { destruct Hk as (k & Hk). rewrite Eks in Hk. destruct i as [|i']; [discriminate|]. exists i'. split; [reflexivity|]. cbn in Hk.
      destruct (Nat.le_gt_cases i' (length pre)) as [|Hgt]; [assumption|]. exfalso.
      rewrite nth_error_app2 in Hk by lia. replace (i' - length mid)%nat with (S (i' - length mid - 1)) in Hk by lia. cbn in Hk.
      destruct (i' - length mid - 1)%nat as [|[|]]; discriminate. }
    destruct Hi as (i' & -> & Hi).
    rewrite Es in Eo, G. cbn [overlay_at] in Eo.
    apply chain_pre_cons in G. destruct G as (L0 & _ & _ & G).
    pose proof L0 as (Wl & Dl & _). assert (Dl' := same_dims_sym _ _ Dl). pose proof Dl as (d1 & d2 & d3).
    assert (Jm : forall q, in_map (l_over l0) q -> in_map p q) by (intros q; apply (same_dims_in_map (l_over l0) p q Dl)).
    assert (J' : forall q, in_map p q -> in_map (l_over l0) q) by (intros q; apply (same_dims_in_map p (l_over l0) q Dl')).
    destruct (overlay_tail ang m x u Mo Ku Lk Dr i' pre (l_over l0) Wl) as (pre' & x' & u' & upd & Et & Ep & T); try assumption; try congruence; try lia.
    + eapply chain_pre_dims; eassumption.
    + apply mid_not_output; assumption.
    + intros k Ek El. apply Nt; [congruence|]. cbn [length]. congruence.
    + unfold meets_map. rewrite d1, d2, D1, D2. exact Me.
    + intros m2 Em q I2 Q. apply (Hd m2 Em q); auto.
    + rewrite Et in Eo. cbn [bind fst snd] in Eo. injection Eo as <- <-.
      destruct T as [t1 t2 t3 t4 t5 t6].
      assert (Sync : forall q, in_map p q -> client c (PubUpdate upd) q = peek (l_over x') q).
      { intros q Iq. cbn [client]. destruct (in_updateb upd q) eqn:Eb.
        - apply t4; [auto|]. apply in_updateb_iff. exact Eb.
        - assert (Nu : ~ in_update upd q) by (rewrite <- in_updateb_iff; congruence).
          destruct (t5 q (J' q Iq)) as [Q|Q]; [tauto|]. rewrite Q. destruct Sy as [Sy|Sy]; [|apply Sy; exact Iq].
          exfalso. apply Nu, t6; auto. }
      do 2 eexists. split; [reflexivity|]. split; [exact Bf|]. split; [reflexivity|]. split; [exact R2|]. cbn [n_stack s_layers s_base]. split.
      * split. exists l0, pre', x', u'. cbn [n_stack s_layers s_base]. split; [reflexivity|]. split; [congruence|]. split; [assumption|].
        split. { intros m2 Em q Iq Q. apply (t2 m2 Em q); auto. } split; [assumption|]. right. exact Sync.
      * exists l0, pre', x', u'. split; [reflexivity|]. split; [congruence|]. exact Sync.
  Qed.

  (** Histories that begin with a base map. *)
  Lemma history_sync c0 b0 es : Forall (good_event ks) (EvBase b0 :: es) -> Forall neat es ->
    (forall b i m, In (EvBase b) (EvBase b0 :: es) -> In (EvOverlay i m) es -> meets b m) ->
    exists n ps b lat, run (new_node root ang ks) (EvBase b0 :: es) = Ok (n, ps) /\ last_base (EvBase b0 :: es) = Some b /\
      n_buf n = [] /\ good_base b /\ ready root ang ks b lat (n_stack n) /\ in_sync n (fold_left client ps c0) /\
      forall es' i m, es = es' ++ [EvOverlay i m] ->
        exists l0 pre x y, s_layers (n_stack n) = l0 :: pre ++ [x; y] /\ length pre = length mid /\
          forall q, in_map (s_base (n_stack n)) q -> fold_left client ps c0 q = peek (l_over x) q.
  Proof.
    induction es as [|e es IH] using rev_ind; intros G Nt Me.
    - pose proof (Forall_inv G) as Gb.
      destruct (base_sync (fun _ => None) (n_stack (new_node root ang ks)) b0 _ (new_can root ang ks) Gb eq_refl) as (s' & ps & E & R & Sy).
      { intros l0 pre x u El _. cbn [new_node n_stack s_layers] in El. 
        assert (Hin : In x (map new_layer ks) /\ In u (map new_layer ks)).
        { rewrite El. split; right; apply in_or_app; right; [left; reflexivity|right; left; reflexivity]. }
        destruct Hin as [H1 H2]. apply in_map_iff in H1, H2. destruct H1 as (k1 & <- & _), H2 as (k2 & <- & _).
        split; [right; reflexivity|]. intros k m _ Em. discriminate. }
      exists (Node s' []), ps, b0, (fun _ => None). cbn [run step]. unfold cb_map. rewrite E. cbn [bind fst snd n_buf new_node replay n_stack]. rewrite !app_nil_r.
      split; [reflexivity|]. split; [reflexivity|]. split; [reflexivity|]. split; [assumption|]. split; [assumption|]. split; [apply Sy|].
      intros es' i m Ee. destruct es'; discriminate.
    - rewrite app_comm_cons in G. apply Forall_app in G. destruct G as [G Ge]. pose proof (Forall_inv Ge) as Ge'.
      apply Forall_app in Nt. destruct Nt as [Nt Ne]. pose proof (Forall_inv Ne) as Ne'.
      destruct IH as (n & ps & b & lat & E & Lb & Bf & Gb & R & Sy & _); try assumption.
      { intros b i m H1 H2. apply (Me b i m); [destruct H1 as [H1|H1]; [left; exact H1|right; apply in_or_app; auto]|apply in_or_app; auto]. }
      rewrite app_comm_cons, run_app, E, last_base_snoc. cbn [bind fst snd run].
      destruct e as [b1|i m]; cbn [step].
      + unfold cb_map. rewrite Bf. 
        destruct (base_sync lat (n_stack n) b1 _ (ready_can _ _ _ _ _ _ R) Ge' eq_refl) as (s' & ps' & E2 & R2 & Sy2).
        { intros l0 pre x u El Ep. destruct Sy as [(l1 & pre1 & x1 & u1 & Es & Lp & Lk & _ & Dr & _)]. rewrite Es in El.
          injection El as -> El. change (pre ++ [x; u]) with (pre ++ [x] ++ [u]) in El. change (pre1 ++ [x1; u1]) with (pre1 ++ [x1] ++ [u1]) in El.
          rewrite !app_assoc in El. apply app_inj_tail in El. destruct El as [El <-]. apply app_inj_tail in El. destruct El as [_ <-]. auto. }
        rewrite E2. cbn [bind fst snd replay n_stack]. rewrite !app_nil_r. exists (Node s' []), (ps ++ ps'), b1, lat. split; [reflexivity|].
        split; [reflexivity|]. split; [reflexivity|]. split; [assumption|]. split; [assumption|]. split; [apply Sy2|].
        intros es' i m Ee. apply app_inj_tail in Ee. destruct Ee as [_ Ee]. discriminate.
      + destruct (overlay_sync b lat n i m (fold_left client ps c0) R Gb Bf Ge' Ne') as (n' & u & E2 & Bf2 & Eb & R2 & Sy2 & Fin); [|assumption|].
        { apply (Me b i m); [|apply in_or_app; right; left; reflexivity].
          apply (last_base_in _ _) in Lb. destruct Lb as [Lb|Lb]; [left; exact Lb|right; apply in_or_app; left; exact Lb]. }
        rewrite E2. cbn [bind fst snd app]. do 2 eexists. exists b. eexists. split; [reflexivity|]. split; [exact Lb|]. split; [assumption|]. split; [assumption|].
        split; [exact R2|]. rewrite fold_left_app. cbn [fold_left]. split; [exact Sy2|]. intros es' i2 m2 _. rewrite Eb. exact Fin.
  Qed.
End Sync.
