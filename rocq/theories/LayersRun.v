(** Histories of the layer stack; theorems are in LayersProps.v. *)
From Verif Require Import Common CSpace CSpaceProps Inflate InflateProofs InflateProps Layers LayersProofs.
Local Open Scope Z_scope.

Lemma layer_pre_dims a p p' l : same_dims p p' -> layer_pre a p l -> layer_pre a p' l.
Proof.
  intros D (A & B & C). split; [assumption|]. split; [|assumption]. eapply same_dims_trans; eassumption.
Qed.
Lemma fits_dims p p' r : same_dims p p' -> fits p r -> fits p' r.
Proof. intros (A & B & C) F. unfold fits in *. rewrite <- A, <- B. exact F. Qed.
Lemma passed_dims a p p' r : same_dims p p' -> passed a p r -> passed a p' r.
Proof. intros D [T [Z|F]]; (split; [assumption|]); [left; assumption|right; eapply fits_dims; eassumption]. Qed.
Lemma out_fits_dims p p' l : same_dims p p' -> out_fits p l -> out_fits p' l.
Proof. intros D F E. eapply fits_dims; [exact D|apply F, E]. Qed.

Fixpoint updates_last (ls : list layer) : Prop :=
  match ls with [] => True | l :: ls' => (l_kind l = UpdateOut -> ls' = []) /\ updates_last ls' end.
Definition up_empty (l : layer) : Prop := l_kind l = UpdateOut -> l_region l = empty_region.
Record chain_pre (a : Z) (p : cmap) (ls : list layer) : Prop := {
  cp_pre : Forall (layer_pre a p) ls; cp_last : updates_last ls; cp_empty : Forall up_empty ls }.
Fixpoint chain_settled (p : cmap) (ls : list layer) : Prop :=
  match ls with [] => True | l :: ls' => settled p l /\ chain_settled (l_over l) ls' end.

Lemma chain_pre_cons a p l ls : chain_pre a p (l :: ls) -> layer_pre a p l /\ up_empty l /\ (l_kind l = UpdateOut -> ls = []) /\ chain_pre a p ls.
Proof.
  intros [A [B B'] C]. inversion A; subst. inversion C; subst. split; [assumption|]. split; [assumption|]. split; [assumption|]. split; assumption.
Qed.
Lemma chain_pre_dims a p p' ls : same_dims p p' -> chain_pre a p ls -> chain_pre a p' ls.
Proof.
  intros D [A B C]. split; try assumption. eapply Forall_impl; [|exact A]. intros l. apply layer_pre_dims. assumption.
Qed.

Lemma chain_ok a ls : forall p r out, wf p -> ca p = a -> 0 < a -> chain_pre a p ls -> passed a p r ->
  (Forall (out_fits p) ls \/ zero_size r = false) ->
  exists ls' ps, chain p r out ls = Ok (ls', ps) /\ chain_pre a p ls' /\ chain_settled p ls' /\ Forall (out_fits p) ls' /\
    Forall2 same_conf ls ls'.
Proof.
  induction ls as [|l ls IH]; intros p r out W Ha Pa C P F.
  - exists [], []. split; [reflexivity|]. split; [exact C|]. split; [exact I|]. split; constructor.
  - apply chain_pre_cons in C. destruct C as (L & U & UL & C).
    assert (F1 : out_fits p l \/ zero_size r = false).
    { destruct F as [F|F]; [|auto]. inversion F; auto. }
    destruct (entry_ok a p r out l W Ha Pa L U P F1) as (l' & r' & out' & ps & E & L' & S' & K' & P' & U' & F' & Z').
    cbn [chain]. rewrite E. cbn [bind].
    pose proof L' as (Wl & Dl & _). apply same_dims_sym in Dl.
    destruct (IH (l_over l') r' out' Wl) as (ls' & ps' & E2 & C2 & S2 & F2 & K2).
    + destruct Dl as (_ & _ & <-). assumption.
    + assumption.
    + eapply chain_pre_dims; eassumption.
    + eapply passed_dims; eassumption.
    + destruct F as [F|F].
      * left. inversion F; subst. eapply Forall_impl; [|eassumption]. intros x. apply out_fits_dims. assumption.
      * destruct (l_kind l) eqn:EK; try (right; apply Z'; [discriminate|assumption]). left. rewrite (UL eq_refl). constructor.
    + rewrite E2. cbn [bind fst snd]. exists (l' :: ls'), (ps ++ ps'). split; [reflexivity|].
      apply same_dims_sym in Dl.
      split. { destruct C2 as [c1 c2 c3]. split.
        - constructor; [assumption|]. eapply Forall_impl; [|exact c1]. intros x. apply layer_pre_dims. assumption.
        - split; [|assumption]. intros EK. rewrite <- (proj1 K') in EK. specialize (UL EK). subst ls. inversion K2. reflexivity.
        - constructor; [|assumption]. intros EK. rewrite <- (proj1 K') in EK. apply U'. assumption. }
      split; [split; assumption|].
      split. { constructor; [assumption|]. eapply Forall_impl; [|exact F2]. intros x. apply out_fits_dims. assumption. }
      constructor; assumption.
Qed.

Lemma overlay_ok a m : msg_ok m -> forall i ls p, wf p -> ca p = a -> 0 < a -> (i < length ls)%nat ->
  chain_pre a p ls -> chain_settled p ls -> Forall (out_fits p) ls -> 
  (forall l, nth_error ls i = Some l -> exists k, l_kind l = Foot k) ->
  exists ls' ps, overlay_at p i m ls = Ok (ls', ps) /\ chain_pre a p ls' /\ chain_settled p ls' /\ Forall (out_fits p) ls' /\
    map l_kind ls' = map l_kind ls /\
    forall j, nth_error (map l_msg ls') j = if Nat.eqb j i then Some (Some m) else nth_error (map l_msg ls) j.
Proof.
  intros Mo. induction i as [|i IH]; intros [|l ls] p W Ha Pa Hi C S F HK; cbn [length] in Hi; try lia.
  - cbn [overlay_at]. destruct (HK l eq_refl) as (k & EK).
    set (r := Region (gox (o_grid m)) (goy (o_grid m)) 0 (o_w m) (o_h m) (ca p) (o_stamp m)).
    set (l0 := Layer (l_kind l) (l_over l) r (l_prev l) (l_oprev l) (Some m)).
    pose proof C as C'. apply chain_pre_cons in C'. destruct C' as (L & U & UL & C').
    assert (Tr : tall a r). { destruct Mo as (_ & m1 & m2). split; [unfold sized, r; cbn; pose proof (proj1 (proj2 (proj2 W))); lia|]. cbn. lia. }
    assert (L0 : layer_pre a p l0).
    { destruct L as (A1 & A2 & A3 & A4 & A5 & A6 & A7). unfold layer_pre, l0. cbn [l_over l_region l_prev l_oprev l_kind l_msg].
      repeat (split; [assumption|]). intros m' E. injection E as <-. assumption. }
    assert (U0 : up_empty l0) by (intros E; cbn in E; congruence).
    (* the message region need not fit; entry normalises it *)
    pose proof W as (Hw & Hh & _).
    destruct (reg_facts a p r r W Ha Pa Tr Tr) as (T1 & P1 & _).
    (* passing r itself: entry only uses merge region r *)
    assert (EE : forall out, entry p r out l0 = entry p empty_region out l0).
    { intros out. unfold entry. cbn [l_region l0].
      assert (Em : normalize (merge r r) (cw p) (ch p) = normalize (merge r empty_region) (cw p) (ch p)).
      { unfold merge at 2. cbn [zero_size empty_region rw rh ra Z.eqb orb]. unfold merge. destruct (zero_size r); [reflexivity|].
        rewrite !Z.ltb_irrefl. f_equal. unfold r. cbn. f_equal; lia. }
      rewrite Em. reflexivity. }
    assert (EC : chain p r true (l0 :: ls) = chain p empty_region true (l0 :: ls)) by (cbn [chain]; rewrite EE; reflexivity).
    rewrite EC.
    assert (C0 : chain_pre a p (l0 :: ls)).
    { destruct C' as [c1 c2 c3]. split; [constructor; assumption|split; [intros E; cbn in E; congruence|assumption]|constructor; assumption]. }
    assert (F0 : Forall (out_fits p) (l0 :: ls)).
    { inversion F; subst. constructor; [|assumption]. intros E. cbn in E. congruence. }
    destruct (chain_ok a (l0 :: ls) p empty_region true W Ha Pa C0) as (ls' & ps & E & C2 & S2 & F2 & K2).
    { split; [apply tall_empty|left; reflexivity]. } { left; assumption. }
    exists ls', ps. split; [exact E|]. split; [assumption|]. split; [assumption|]. split; [assumption|].
    assert (Kk : forall l1 l2, Forall2 same_conf l1 l2 -> map l_kind l2 = map l_kind l1 /\ map l_msg l2 = map l_msg l1).
    { clear. induction 1 as [|x y l1 l2 [H1 H2] _ [IH1 IH2]]; [auto|]. cbn. split; congruence. }
    destruct (Kk _ _ K2) as [K3 K4]. rewrite K3, K4. split; [reflexivity|]. intros [|j]; reflexivity.
  - cbn [overlay_at]. pose proof C as C'. apply chain_pre_cons in C'. destruct C' as (L & U & UL & C').
    pose proof L as (Wl & Dl & _). assert (Dl' := Dl). apply same_dims_sym in Dl'. destruct S as [S0 S1]. inversion F; subst.
    destruct (IH ls (l_over l) Wl) as (ls' & ps & E & C2 & S2 & F2 & K2 & M2).
    + destruct Dl as (_ & _ & ->). reflexivity.
    + assumption.
    + lia.
    + eapply chain_pre_dims; eassumption.
    + assumption.
    + eapply Forall_impl; [|eassumption]. intros x. apply out_fits_dims. assumption.
    + intros l' E. apply (HK l' E).
    + rewrite E. cbn [bind fst snd]. exists (l :: ls'), ps. split; [reflexivity|].
      split. { destruct C2 as [c1 c2 c3]. split.
        - constructor; [assumption|]. eapply Forall_impl; [|exact c1]. intros x. apply layer_pre_dims. assumption.
        - split; [|assumption]. intros EK. specialize (UL EK). subst ls. destruct ls'; [reflexivity|discriminate].
        - constructor; assumption. }
      split; [split; assumption|]. split. { constructor; [assumption|]. eapply Forall_impl; [|exact F2]. intros x. apply out_fits_dims. assumption. }
      cbn [map]. rewrite K2. split; [reflexivity|]. intros [|j]; [reflexivity|]. cbn. apply M2.
Qed.

(** ** Histories *)
Fixpoint last_base (es : list event) : option bmsg :=
  match es with
  | [] => None
  | e :: es' => match last_base es' with Some b => Some b | None => match e with EvBase b => Some b | _ => None end end
  end.
Fixpoint latest (i : nat) (es : list event) : option omsg :=
  match es with
  | [] => None
  | e :: es' => match latest i es' with Some m => Some m | None =>
                 match e with EvOverlay j m => if Nat.eqb j i then Some m else None | _ => None end end
  end.
Fixpoint overlays (es : list event) : list (nat * omsg) :=
  match es with [] => [] | EvOverlay i m :: es' => (i, m) :: overlays es' | _ :: es' => overlays es' end.

Lemma last_base_snoc es e : last_base (es ++ [e]) = match e with EvBase b => Some b | _ => last_base es end.
Proof.
  induction es as [|x es IH]; cbn; [destruct e; reflexivity|]. rewrite IH. destruct e; [reflexivity|]. destruct (last_base es); reflexivity.
Qed.
Lemma latest_snoc i es e : latest i (es ++ [e]) = match e with EvOverlay j m => if Nat.eqb j i then Some m else latest i es | _ => latest i es end.
Proof.
  induction es as [|x es IH]; cbn; [destruct e; [reflexivity|destruct (Nat.eqb _ _); reflexivity]|]. rewrite IH.
  destruct e as [b|j m]; [reflexivity|]. destruct (Nat.eqb j i); reflexivity.
Qed.
Lemma overlays_app es es' : overlays (es ++ es') = overlays es ++ overlays es'.
Proof. induction es as [|[b|i m] es IH]; cbn; rewrite ?IH; reflexivity. Qed.

Lemma run_app n es es' : run n (es ++ es') = do a <- run n es; do b <- run (fst a) es'; Ok (fst b, snd a ++ snd b).
Proof.
  revert n. induction es as [|e es IH]; intros n; cbn [app run bind fst snd].
  - destruct (run n es') as [[? ?]|]; reflexivity.
  - destruct (step n e) as [[n1 p1]|]; cbn [bind fst snd]; [|reflexivity]. rewrite IH.
    destruct (run n1 es) as [[n2 p2]|]; cbn [bind fst snd]; [|reflexivity].
    destruct (run n2 es') as [[n3 p3]|]; cbn [bind fst snd]; [|reflexivity]. rewrite app_assoc. reflexivity.
Qed.

Lemma base_map_total k w h a data : 0 <= w -> 0 <= h -> 0 <= a -> Z.of_nat (length data) = w * h -> 0 <= f_r k ->
  exists m', base_map k w h a data = Ok m' /\ wf m' /\ cw m' = w /\ ch m' = h /\ ca m' = a.
Proof.
  intros Hw Hh Ha HL R. unfold base_map.
  set (k' := Fcfg (f_tmpl k) (f_r k) (f_keep k) false). set (g := base_grid w h data).
  set (m0 := Cmap w h a (repeat (-1) (Z.to_nat (w * h * a)))).
  assert (W0 : wf m0). { unfold wf, m0. cbn. rewrite repeat_length. split; [assumption|]. split; [assumption|]. split; [assumption|]. nia. }
  assert (G : good_msg g). { split; [exact Hw|]. split; [exact HL|reflexivity]. }
  destruct (C24_inflation_writes_nothing_spurious k' g m0 W0 G R) as (m1 & E1 & W1 & D1 & H1). rewrite E1. cbn [bind].
  destruct (cleared_fold (fun m yaw => foldM (fun m i => do v <- msg_at g i; if v <? 0 then setc m (i mod w) (i / w) yaw (-1) else Ok m)
       (range_excl 0 (w * h)) m) (fun yaw q => exists i, In i (range_excl 0 (w * h)) /\ value g i < 0 /\ q = (i mod w, i / w, yaw))
       (range_excl 0 a) m0 m1 W1 D1) as (m2 & E2 & W2 & D2 & H2).
  { intros m yaw Hy W D. apply in_range_excl in Hy.
    apply (cleared_fold _ (fun i q => value g i < 0 /\ q = (i mod w, i / w, yaw)) _ m0 m W D). clear m W D.
    intros m i Hi W D. apply in_range_excl in Hi. assert (Ii : index g i) by exact Hi.
    rewrite (msg_at_ok g HL i Ii). cbn [bind]. destruct (Z.ltb_spec (value g i) 0).
    - destruct (index_coords g Hw i Ii) as (X & Y & _). cbn [gw gh g base_grid] in X, Y. destruct D as (Dw & Dh & Dc).
      destruct (setc_cleared m (i mod w) (i / w) yaw W) as (m3 & E3 & R3). { unfold m0 in *. cbn in Dw, Dh, Dc |- *. lia. }
      exists m3. split; [assumption|]. eapply cleared_ext; [|exact R3]. intros q _. cbn. tauto.
    - exists m. split; [reflexivity|]. eapply cleared_ext; [|apply cleared_none; assumption]. intros q _. split; [tauto|]. lia. }
  exists m2. split; [exact E2|]. split; [assumption|].
  assert (DD : same_dims m0 m2) by (eapply same_dims_trans; eassumption). destruct DD as (Dw & Dh & Dc). unfold m0 in Dw, Dh, Dc. cbn in Dw, Dh, Dc.
  auto.
Qed.

Section Hist.
  Variables (root : fcfg) (ang : Z) (ks : list kind).
  Hypothesis Hroot : 0 <= f_r root.
  Hypothesis Hang : 0 < ang.
  Hypothesis Hks : Forall kind_ok ks.
  (** At most one update output, at the end (costmap_3d.cpp:337-338). *)
  Hypothesis Hlast : forall pre post, ks = pre ++ UpdateOut :: post -> post = [].

  Definition good_base (b : bmsg) : Prop := 1 <= b_w b /\ 1 <= b_h b /\ Z.of_nat (length (b_data b)) = b_w b * b_h b.
  (** Overlay messages go to footprint/plain layers and are well-formed. *)
  Definition good_event (e : event) : Prop :=
    match e with
    | EvBase b => good_base b
    | EvOverlay i m => (exists k, nth_error ks i = Some (Foot k)) /\ msg_ok m
    end.

  (** State of the stack after a base map and the overlay messages [latest]. *)
  Record ready (b : bmsg) (lat : nat -> option omsg) (s : stack) : Prop := {
    rd_root : s_root s = root; rd_ang : s_ang s = ang;
    rd_base : base_map root (b_w b) (b_h b) ang (b_data b) = Ok (s_base s);
    rd_dims : cw (s_base s) = b_w b /\ ch (s_base s) = b_h b /\ ca (s_base s) = ang;
    rd_wf : wf (s_base s);
    rd_reg : tall ang (s_rregion s);
    rd_pre : chain_pre ang (s_base s) (s_layers s);
    rd_set : chain_settled (s_base s) (s_layers s);
    rd_fit : Forall (out_fits (s_base s)) (s_layers s);
    rd_kind : map l_kind (s_layers s) = ks;
    rd_msg : forall j l, nth_error (s_layers s) j = Some l -> l_msg l = lat j }.

  (** The part of [ready] that a new base map needs. *)
  Record can_base (lat : nat -> option omsg) (s : stack) : Prop := {
    cb_root : s_root s = root; cb_ang : s_ang s = ang; cb_reg : tall ang (s_rregion s);
    cb_lay : Forall (fun l => tall ang (l_region l) /\ tall ang (l_prev l) /\ tall ang (l_oprev l) /\
                              (forall m, l_msg l = Some m -> msg_ok m) /\ up_empty l) (s_layers s);
    cb_kind : map l_kind (s_layers s) = ks;
    cb_msg : forall j l, nth_error (s_layers s) j = Some l -> l_msg l = lat j }.
  Lemma ready_can b lat s : ready b lat s -> can_base lat s.
  Proof.
    intros [A B C D E F [G1 G2 G3] H I J K]. split; try assumption.
    clear -G1 G3. induction G1 as [|l ls (? & ? & ? & ? & ? & ? & ?) _ IH]; [constructor|]. inversion G3; subst.
    constructor; auto.
  Qed.

  Lemma updates_last_kinds ls : map l_kind ls = ks -> updates_last ls.
  Proof.
    intros E. assert (H : forall pre post, map l_kind ls = pre ++ UpdateOut :: post -> post = []) by (rewrite E; exact Hlast).
    clear E. induction ls as [|l ls IH]; cbn; [exact I|]. split.
    - intros EK. specialize (H [] (map l_kind ls)). cbn in H. rewrite EK in H. specialize (H eq_refl). destruct ls; [reflexivity|discriminate].
    - apply IH. intros pre post E. apply (H (l_kind l :: pre) post). cbn. rewrite E. reflexivity.
  Qed.

  Lemma set_base_ok lat s b : can_base lat s -> good_base b -> exists s' ps, set_base b s = Ok (s', ps) /\ ready b lat s'.
  Proof.
    intros [A B C D E F] (Gw & Gh & GL). unfold set_base. rewrite A, B, (proj2 (Z.ltb_lt 0 ang) Hang), (proj2 (Z.leb_le _ _)) by lia. cbn [andb].
    destruct (base_map_total root (b_w b) (b_h b) ang (b_data b)) as (m & Em & Wm & Mw & Mh & Ma); try assumption; try lia.
    rewrite Em. cbn [bind].
    set (full := Region 0 0 0 (b_w b) (b_h b) ang (b_stamp b)).
    set (ls := map (fun l => Layer (l_kind l) m (l_region l) (l_prev l) (l_oprev l) (l_msg l)) (s_layers s)).
    assert (Tf : tall ang full). { split; [unfold sized, full; cbn; lia|]. cbn. lia. }
    assert (Ff : fits m full). { split; [apply Tf|]. unfold full. cbn. lia. }
    destruct (reg_facts ang m (s_rregion s) full Wm Ma Hang C Tf) as (T1 & P1 & _ & _ & _ & Z1).
    rewrite Mw, Mh in *.
    assert (Zf : zero_size full = false). { apply zero_size_false; [apply Tf|]. cbn. lia. }
    specialize (Z1 Zf Ff).
    assert (Kls : map l_kind ls = ks). { unfold ls. rewrite map_map. cbn. exact E. }
    assert (Cls : chain_pre ang m ls).
    { assert (Kok : Forall (fun l => kind_ok (l_kind l)) (s_layers s)).
      { rewrite Forall_forall. intros l Hl. rewrite Forall_forall in Hks. apply Hks. rewrite <- E. apply List.in_map. assumption. }
      split.
      - unfold ls. clear -D Kok Wm. induction D as [|l l' (d1 & d2 & d3 & d4 & d5) _ IH]; [constructor|]. inversion Kok; subst.
        constructor; [|auto]. unfold layer_pre. cbn [l_over l_region l_prev l_oprev l_kind l_msg].
        split; [assumption|]. split; [apply same_dims_refl|]. auto 10.
      - apply updates_last_kinds. assumption.
      - unfold ls. clear -D. induction D as [|l l' (d1 & d2 & d3 & d4 & d5) _ IH]; [constructor|]. constructor; auto. }
    destruct (chain_ok ang ls m (normalize (merge (s_rregion s) full) (b_w b) (b_h b)) true Wm Ma Hang Cls P1 (or_intror Z1)) as (ls' & ps & Ec & C2 & S2 & F2 & K2).
    rewrite Ec. cbn [bind fst snd]. do 2 eexists. split; [reflexivity|].
    assert (Kk : forall l1 l2, Forall2 same_conf l1 l2 -> map l_kind l2 = map l_kind l1 /\ forall j y, nth_error l2 j = Some y -> exists x, nth_error l1 j = Some x /\ l_msg y = l_msg x).
    { clear. induction 1 as [|x y l1 l2 [H1 H2] _ [IH1 IH2]].
      - split; [reflexivity|]. intros [|j] y; discriminate.
      - cbn. split; [congruence|]. intros [|j] z Hz; cbn in Hz; [injection Hz as <-; exists x; auto|apply IH2; assumption]. }
    destruct (Kk _ _ K2) as [K3 K4].
    split; cbn [s_root s_ang s_base s_rregion s_layers]; try assumption; try reflexivity.
    - auto.
    - congruence.
    - intros j l Hj. destruct (K4 j l Hj) as (x & Hx & ->). unfold ls in Hx. rewrite nth_error_map in Hx.
      destruct (nth_error (s_layers s) j) as [y|] eqn:Ey; [|discriminate]. injection Hx as <-. cbn. apply F. assumption.
  Qed.

  Lemma ready_overlay b lat s i m : ready b lat s -> (exists k, nth_error ks i = Some (Foot k)) -> msg_ok m ->
    exists ls' ps, overlay_at (s_base s) i m (s_layers s) = Ok (ls', ps) /\
      ready b (fun j => if Nat.eqb i j then Some m else lat j) (Stack (s_root s) (s_ang s) (s_base s) (s_rregion s) ls').
  Proof.
    intros [A B C (D1 & D2 & D3) E F G H I J K] (k & Hk) Mo.
    assert (Hi : (i < length (s_layers s))%nat).
    { apply nth_error_Some. rewrite <- J, nth_error_map in Hk. destruct (nth_error (s_layers s) i); [discriminate|discriminate]. }
    destruct (overlay_ok ang m Mo i (s_layers s) (s_base s) E D3 Hang Hi G H I) as (ls' & ps & Eo & G2 & H2 & I2 & J2 & K2).
    { intros l El. exists k. rewrite <- J, nth_error_map, El in Hk. injection Hk as ->. reflexivity. }
    exists ls', ps. split; [exact Eo|]. split; cbn [s_root s_ang s_base s_rregion s_layers]; try assumption.
    - auto.
    - congruence.
    - intros j l Hj. specialize (K2 j). rewrite nth_error_map, Hj in K2. cbn in K2. rewrite Nat.eqb_sym.
      destruct (Nat.eqb j i); [injection K2 as ->; reflexivity|].
      rewrite nth_error_map in K2. destruct (nth_error (s_layers s) j) as [y|] eqn:Ey; [|discriminate].
      injection K2 as ->. apply K. assumption.
  Qed.

  Lemma replay_ok q : forall b lat n, good_base b -> ready b lat (n_stack n) ->
    (forall i m, In (i, m) q -> (exists k, nth_error ks i = Some (Foot k)) /\ msg_ok m) ->
    exists n' ps, replay q n = Ok (n', ps) /\ n_buf n' = n_buf n /\
      ready b (fun j => match latest j (map (fun im => EvOverlay (fst im) (snd im)) q) with Some m => Some m | None => lat j end) (n_stack n').
  Proof.
    induction q as [|[i m] q IH]; intros b lat n Gb R H.
    - exists n, []. split; [reflexivity|]. split; [reflexivity|]. exact R.
    - cbn [replay]. pose proof (rd_dims _ _ _ R) as (D1 & D2 & _). destruct Gb as (G1 & G2 & G3).
      rewrite (proj2 (Z.ltb_ge _ _)), (proj2 (Z.ltb_ge _ _)) by lia. cbn [orb].
      unfold cb_overlay. rewrite (proj2 (Z.ltb_ge _ _)), (proj2 (Z.ltb_ge _ _)) by lia. cbn [orb].
      destruct (H i m (or_introl eq_refl)) as [Hk Mo].
      destruct (ready_overlay b lat (n_stack n) i m R Hk Mo) as (ls' & ps & Eo & R2). rewrite Eo. cbn [bind fst snd].
      match goal with |- context [replay q ?x] => set (n1 := x) end.
      destruct (IH b _ n1 (conj G1 (conj G2 G3)) R2 (fun j x Hx => H j x (or_intror Hx))) as (n' & ps' & E2 & B2 & R3).
      rewrite E2. cbn [bind fst snd]. exists n', (ps ++ ps'). split; [reflexivity|]. split; [exact B2|].
      destruct R3 as [r1 r2 r3 r4 r5 r6 r7 r8 r9 r10 r11]. split; try assumption. intros j l Hj. rewrite (r11 j l Hj). cbn [map latest fst snd].
      destruct (latest j _); [reflexivity|]. destruct (Nat.eqb i j); reflexivity.
  Qed.

  (** The state after a history. *)
  Definition state_after (es : list event) (n : node) : Prop :=
    match last_base es with
    | None => n = Node (n_stack (new_node root ang ks)) (overlays es)
    | Some b => n_buf n = [] /\ good_base b /\ ready b (fun j => latest j es) (n_stack n)
    end.

  Lemma new_can : can_base (fun _ => None) (n_stack (new_node root ang ks)).
  Proof.
    split; cbn; try reflexivity; try apply tall_empty.
    - apply Forall_forall. intros l Hl. apply in_map_iff in Hl. destruct Hl as (k & <- & _). cbn.
      repeat (split; [apply tall_empty|]). split; [discriminate|]. intros _. reflexivity.
    - rewrite map_map. cbn. apply map_id.
    - intros j l Hj. rewrite nth_error_map in Hj. destruct (nth_error ks j); [|discriminate]. injection Hj as <-. reflexivity.
  Qed.

  Lemma good_overlays es : Forall good_event es -> forall i m, In (i, m) (overlays es) -> (exists k, nth_error ks i = Some (Foot k)) /\ msg_ok m.
  Proof.
    induction 1 as [|[b|j x] es He _ IH]; cbn; [intros ? ? []|exact IH|]. intros i m [E|E]; [injection E as <- <-; exact He|apply IH; exact E].
  Qed.
  Lemma latest_overlays es : last_base es = None -> forall j, latest j (map (fun im => EvOverlay (fst im) (snd im)) (overlays es)) = latest j es.
  Proof.
    induction es as [|[b|i m] es IH]; cbn; [reflexivity| |]; destruct (last_base es); try discriminate; intros _ j.
    rewrite IH by reflexivity. reflexivity.
  Qed.

  Lemma run_ok es : Forall good_event es -> exists n ps, run (new_node root ang ks) es = Ok (n, ps) /\ state_after es n.
  Proof.
    induction es as [|e es IH] using rev_ind; intros G.
    - exists (new_node root ang ks), []. split; [reflexivity|]. reflexivity.
    - apply Forall_app in G. destruct G as [G Ge]. inversion Ge as [|? ? Ge' _]; subst. destruct (IH G) as (n & ps & E & S).
      rewrite run_app, E. cbn [bind fst snd run]. unfold state_after in *. rewrite last_base_snoc.
      destruct e as [b|i m]; cbn [step].
      + unfold cb_map. cbn in Ge'.
        assert (HB : exists lat, can_base lat (n_stack n) /\
           (forall j, match latest j (map (fun im => EvOverlay (fst im) (snd im)) (n_buf n)) with Some m => Some m | None => lat j end = latest j es) /\
           (forall i m, In (i, m) (n_buf n) -> (exists k, nth_error ks i = Some (Foot k)) /\ msg_ok m)).
        { destruct (last_base es) as [b0|] eqn:L.
          - destruct S as (B & _ & R). exists (fun j => latest j es). split; [eapply ready_can; exact R|]. rewrite B. split; [reflexivity|]. intros ? ? [].
          - subst n. exists (fun _ => None). split; [apply new_can|]. cbn [n_buf]. split.
            + intros j. rewrite latest_overlays by exact L. destruct (latest j es); reflexivity.
            + apply good_overlays. exact G. }
        destruct HB as (lat & Cb & Hl & Hb).
        destruct (set_base_ok lat (n_stack n) b Cb Ge') as (s' & ps' & Es & R). rewrite Es. cbn [bind fst snd].
        destruct (replay_ok (n_buf n) b lat (Node s' (n_buf n)) Ge' R Hb) as (n2 & ps2 & Er & _ & R2). rewrite Er. cbn [bind fst snd].
        do 2 eexists. split; [reflexivity|]. split; [reflexivity|]. split; [exact Ge'|]. cbn [n_stack fst].
        destruct R2 as [r1 r2 r3 r4 r5 r6 r7 r8 r9 r10 r11]. split; try assumption.
        intros j l Hj. rewrite (r11 j l Hj), Hl, latest_snoc. reflexivity.
      + destruct Ge' as [Hk Mo]. unfold cb_overlay. destruct (last_base es) as [b0|] eqn:L.
        * destruct S as (B & Gb & R). pose proof (rd_dims _ _ _ R) as (D1 & D2 & _). destruct Gb as (G1 & G2 & G3).
          rewrite (proj2 (Z.ltb_ge _ _)), (proj2 (Z.ltb_ge _ _)) by lia. cbn [orb].
          destruct (ready_overlay b0 _ (n_stack n) i m R Hk Mo) as (ls' & ps' & Eo & R2). rewrite Eo. cbn [bind fst snd].
          do 2 eexists. split; [reflexivity|]. split; [exact B|]. split; [split; [|split]; assumption|]. cbn [n_stack fst].
          destruct R2 as [r1 r2 r3 r4 r5 r6 r7 r8 r9 r10 r11]. split; try assumption.
          intros j l Hj. rewrite (r11 j l Hj), latest_snoc. reflexivity.
        * subst n. cbn [n_stack n_buf new_node s_base cw Z.ltb Z.compare orb]. cbn [bind fst snd].
          do 2 eexists. split; [reflexivity|]. cbn [fst]. rewrite overlays_app. reflexivity.
  Qed.
End Hist.
