(** C83, the costmap side: from the map of the robot's surroundings to the costs the planner searches with. *)
From Coq Require Import Reals ZArith List Lra Lia Psatz Bool ZifyBool.
From Verif Require Import Common CSpace CSpaceProps Inflate InflateProofs InflateProps Layers DistMap Overlay OverlaySpec OverlayProps Polygon PolygonProofs PolygonProps.
Import ListNotations.
Local Open Scope R_scope.

(** *** Specification *)
(** The layer [k] draws with the template of this footprint. *)
Definition template_of (c : params) (fp : list vec2) (k : fcfg) : Prop :=
  f_r k = range_max c fp /\ forall x y a, template_cell c fp x y a = Ok (f_tmpl k x y a).
(** The message of a costmap, as the planner receives it. *)
Definition message_of (stamp : Z) (m : cmap) : mmsg := MMsg stamp (cw m) (ch m) (ca m) (cdata m).
(** With the robot in cell (qx, qy) and heading index qa, its outline keeps clear of the centre of cell (x, y): it does not contain it and is nowhere closer
    than the expansion.  Coordinates relative to that centre. *)
Definition keeps_clear (c : params) (fp : list vec2) (qx qy qa x y : Z) : Prop :=
  inside (placed c fp (qx - x) (qy - y) qa) (V2 0 0) = Ok false /\
  forall p, on_outline (placed c fp (qx - x) (qy - y) qa) p -> expand c <= vdist (V2 0 0) p.
(** A footprint that is a point: the robot is a circle with the expansion as its radius. *)
Definition point_shaped (pts : list vec2) : Prop := Forall (fun v => v = V2 0 0) pts.

(** *** Proofs *)
Lemma low_template c pts fp x y a v : polygon_of pts = Some fp -> template_cell c fp x y a = Ok v -> (v < 100)%Z ->
  inside (placed c fp x y a) (V2 0 0) = Ok false /\ forall p, on_outline (placed c fp x y a) p -> expand c <= vdist (V2 0 0) p.
Proof.
  intros F T L. assert (Nf : fp <> []) by (apply polygon_of_close in F as [-> Q]; apply close_nonempty; intros E; rewrite E in Q; cbn in Q; lia).
  assert (M : placed c fp x y a <> []) by (unfold placed, move; destruct fp; [congruence|discriminate]).
  destruct (pdist_spec (placed c fp x y a) (V2 0 0) M) as (d & Ed & _ & P2 & _).
  unfold template_cell in T. cbv zeta in T. fold (placed c fp x y a) in T. destruct (inside (placed c fp x y a) (V2 0 0)) as [b|]; [|discriminate]. cbn [bind] in T.
  destruct b.
  - exfalso. cbn [bind] in T. assert (v = 100%Z) by (destruct (_ && _)%bool in T; congruence). lia.
  - split; [reflexivity|]. intros p Hp. specialize (P2 p Hp). rewrite Ed in T. cbn [bind] in T. destruct (Rltb d (expand c)) eqn:R.
    + exfalso. assert (v = 100%Z) by (destruct (_ && _)%bool in T; congruence). lia.
    + assert (~ d < expand c) by (rewrite <- Rltb_iff; congruence). lra.
Qed.
Lemma range_nonneg c fp : good_params c -> (0 <= range_max c fp)%Z.
Proof.
  intros (E & Sp & _ & L & _). unfold range_max, ceil. assert (0 <= (radius fp + expand c + spread c) / lin_res c).
  { apply Rmult_le_pos; [pose proof (proj1 (radius_spec fp)); lra|left; apply Rinv_0_lt_compat; exact L]. }
  set (r := _ / _) in *. destruct (base_Int_part (- r)) as [H1 _]. assert (IZR (Int_part (- r)) <= 0) by lra. apply (le_IZR _ 0) in H0. lia.
Qed.
(** The costs of the planner are not below those of the costmap, whatever updates came. *)
Lemma planner_not_below unknown es m cur kept o x y t : Forall good_event es ->
  (forall m u, In (EMap m) es -> In (EUpdate u) es -> OverlaySpec.fits m u = true -> fits_yaw m u) ->
  track es = Some (m, cur, kept) -> orun unknown false es = Ok (Some o) ->
  (0 <= x < m_w m)%Z -> (0 <= y < m_h m)%Z -> (0 <= t < m_a m)%Z -> (map_cost unknown m (x, y, t) <= o_cm o (x, y, t))%Z.
Proof.
  intros G Y T E Hx Hy Ht. destruct (C13_costmap_is_static_plus_latest_update unknown false es G Y) as (s & E' & M). rewrite T in M. destruct M as (o' & -> & W & H & A & _ & Cm & _).
  rewrite E in E'. assert (o' = o) as -> by congruence. rewrite Cm by (unfold in3, in2; rewrite W, H, A; cbn [fst snd]; lia).
  unfold cost_in_force, laid_over. destruct (match cur with Some u => _ | None => _ end); lia.
Qed.
Section Clear.
  Variables (c : params) (pts fp : list vec2) (k : fcfg) (w h a : Z) (data : list Z).
  Hypotheses (Hc : good_params c) (Hf : polygon_of pts = Some fp) (Hk : template_of c fp k) (Hfo : falls_off k).
  Hypotheses (Hw : (0 <= w)%Z) (Hh : (0 <= h)%Z) (Ha : (0 <= a)%Z) (HL : Z.of_nat (length data) = (w * h)%Z).

  (** A pose the planner takes for free keeps clear of every obstacle of the base map. *)
  Theorem free_pose_keeps_clear unknown base es stamp cur kept o qx qy qa x y :
    base_map k w h a data = Ok base -> Forall good_event es ->
    (forall m u, In (EMap m) es -> In (EUpdate u) es -> OverlaySpec.fits m u = true -> fits_yaw m u) ->
    track es = Some (message_of stamp base, cur, kept) -> orun unknown false es = Ok (Some o) ->
    (0 <= qx < w)%Z -> (0 <= qy < h)%Z -> (0 <= qa < a)%Z -> (o_cm o (qx, qy, qa) < 100)%Z ->
    (0 <= at_base w data qx qy)%Z \/ (100 <= i8 unknown)%Z ->
    (0 <= x < w)%Z -> (0 <= y < h)%Z -> at_base w data x y = 100%Z -> keeps_clear c fp qx qy qa x y.
  Proof.
    intros Eb G Y T E Qx Qy Qa L K Hx Hy V. destruct Hk as [Hr Ht].
    assert (R0 : (0 <= f_r k)%Z) by (rewrite Hr; apply range_nonneg; exact Hc).
    destruct (C23_base_map_is_the_inflated_map k w h a data Hw Hh Ha HL R0 Hfo) as (m' & Em & (_ & _ & _ & Wl) & Cw & Ch & Ca & H). rewrite Eb in Em. assert (m' = base) as -> by congruence.
    destruct (H qx qy qa Qx Qy Qa) as [H1 H2]. clear H.
    pose proof (planner_not_below unknown es _ cur kept o qx qy qa G Y T E) as P. cbn [message_of m_w m_h m_a] in P. rewrite Cw, Ch, Ca in P. specialize (P Qx Qy Qa).
    unfold map_cost in P. cbn [message_of m_w m_h m_data fst snd] in P. cbv zeta in P. unfold peek, address in H1, H2.
    rewrite (nth_indep _ 0%Z (-1)%Z) in P by (apply Nat2Z.inj_lt; rewrite Wl, Cw, Ch, Ca, Z2Nat.id; nia).
    set (v := nth _ _ _) in *.
    assert (Kn : (0 <= at_base w data qx qy)%Z). { destruct (Z.leb_spec 0 (at_base w data qx qy)) as [N|N]; [exact N|]. exfalso. destruct K as [K|K]; [lia|]. rewrite (H1 N) in P. cbn in P. lia. }
    destruct (H2 Kn) as [B _]. clear H1 H2.
    unfold keeps_clear. destruct (Z_le_gt_dec (Z.abs (qx - x)) (f_r k)) as [Lx|Gx]; [destruct (Z_le_gt_dec (Z.abs (qy - y)) (f_r k)) as [Ly|Gy]|].
    - apply (low_template c pts fp _ _ _ (f_tmpl k (qx - x) (qy - y) qa) Hf (Ht _ _ _)).
      destruct (Z.leb_spec 100 (f_tmpl k (qx - x) (qy - y) qa)) as [N|N]; [exfalso|exact N].
      specialize (B x y (f_tmpl k (qx - x) (qy - y) qa)). assert (TB : touches_base k w h data x y qx qy qa (f_tmpl k (qx - x) (qy - y) qa)).
      { unfold touches_base. rewrite V. rewrite Z.quot_mul by lia. repeat split; lia. }
      specialize (B TB). destruct (Z.ltb_spec v 0); lia.
    - destruct (C58_template_range_suffices c pts fp (qx - x) (qy - y) qa Hc Hf ltac:(right; rewrite <- Hr; lia)) as [I O]. split; [exact I|].
      intros p Hp. specialize (O p Hp). destruct Hc as (_ & S0 & _). lra.
    - destruct (C58_template_range_suffices c pts fp (qx - x) (qy - y) qa Hc Hf ltac:(left; rewrite <- Hr; lia)) as [I O]. split; [exact I|].
      intros p Hp. specialize (O p Hp). destruct Hc as (_ & S0 & _). lra.
  Qed.
End Clear.

(** *** Round robots *)
Definition cost_at (c : params) (d : R) : Z :=
  if Rltb d (expand c) then 100%Z
  else if Rltb d (expand c + spread c) then trunc_pos (100 - (d - expand c) * (100 - IZR (min_cost c)) / spread c)
  else if Rltb (Rabs (expand c + spread c - d)) (lin_res c / 100) then min_cost c else 0%Z.
Lemma Rltb_spec a b : {Rltb a b = true /\ a < b} + {Rltb a b = false /\ b <= a}.
Proof. unfold Rltb. destruct (Rlt_dec a b); [left|right]; split; auto; lra. Qed.
Lemma trunc_mono a b : a <= b -> (trunc_pos a <= trunc_pos b)%Z.
Proof.
  intros H. unfold trunc_pos. destruct (base_Int_part a) as [A1 A2], (base_Int_part b) as [B1 B2]. apply Z.lt_succ_r. apply lt_IZR. unfold Z.succ. rewrite plus_IZR. lra.
Qed.
Lemma trunc_Z (n : Z) a : IZR n <= a -> (n <= trunc_pos a)%Z.
Proof. intros H. unfold trunc_pos. destruct (base_Int_part a) as [A1 A2]. apply Z.lt_succ_r. apply lt_IZR. unfold Z.succ. rewrite plus_IZR. lra. Qed.
Lemma trunc_le (n : Z) a : a <= IZR n -> (trunc_pos a <= n)%Z.
Proof. intros H. unfold trunc_pos. destruct (base_Int_part a) as [A1 A2]. apply le_IZR. lra. Qed.
Lemma lin_facts c d : good_params c -> expand c <= d < expand c + spread c ->
  let l := 100 - (d - expand c) * (100 - IZR (min_cost c)) / spread c in IZR (min_cost c) <= l <= 100.
Proof.
  intros (E0 & S0 & C0 & _) [A B] l. assert (M0 : 0 <= IZR (min_cost c)) by (apply (IZR_le 0); lia). assert (M1 : IZR (min_cost c) < 100) by (apply (IZR_lt _ 100); lia).
  assert (Sp : 0 < spread c) by lra. set (q := (d - expand c) / spread c). assert (Q : 0 <= q <= 1).
  { unfold q. split; [apply Rmult_le_pos; [lra|left; apply Rinv_0_lt_compat; exact Sp]|]. apply (Rmult_le_reg_r (spread c)); [exact Sp|]. replace ((d - expand c) / spread c * spread c) with (d - expand c) by (field; lra). lra. }
  assert (El : l = 100 - q * (100 - IZR (min_cost c))) by (unfold l, q; field; lra). rewrite El. split; nra.
Qed.
Lemma cost_at_range c d : good_params c -> (0 <= cost_at c d <= 100)%Z.
Proof.
  intros G. unfold cost_at. destruct (Rltb_spec d (expand c)) as [[-> _]|[-> A]]; [lia|]. destruct (Rltb_spec d (expand c + spread c)) as [[-> B]|[-> B]].
  - destruct (lin_facts c d G ltac:(lra)) as [U V]. destruct G as (_ & _ & C0 & _). split; [apply (trunc_Z 0); eapply Rle_trans; [|exact U]; apply IZR_le; lia|apply (trunc_le 100); exact V].
  - destruct (Rltb _ _); destruct G as (_ & _ & C0 & _); lia.
Qed.
Lemma cost_at_falls c d d' : good_params c -> d <= d' -> (cost_at c d' <= cost_at c d)%Z.
Proof.
  intros G D. pose proof (cost_at_range c d' G) as R'. pose proof (cost_at_range c d G) as R0. pose proof G as (E0 & S0 & C0 & L0 & _).
  unfold cost_at in *. destruct (Rltb_spec d (expand c)) as [[-> _]|[-> A]]; [lia|].
  destruct (Rltb_spec d' (expand c)) as [[_ A']|[-> A']]; [lra|].
  destruct (Rltb_spec d (expand c + spread c)) as [[-> B]|[-> B]].
  - destruct (lin_facts c d G ltac:(lra)) as [U _]. destruct (Rltb_spec d' (expand c + spread c)) as [[-> B']|[-> B']].
    + apply trunc_mono. assert (Sp : 0 < / spread c) by (apply Rinv_0_lt_compat; lra). assert (M1 : IZR (min_cost c) < 100) by (apply (IZR_lt _ 100); lia).
      assert ((d - expand c) * (100 - IZR (min_cost c)) / spread c <= (d' - expand c) * (100 - IZR (min_cost c)) / spread c); [|lra].
      unfold Rdiv. apply Rmult_le_compat_r; [lra|]. apply Rmult_le_compat_r; lra.
    + cbv zeta in U. apply trunc_Z in U. destruct (Rltb (Rabs (expand c + spread c - d')) (lin_res c / 100)); [exact U|etransitivity; [apply C0|exact U]].
  - destruct (Rltb_spec d' (expand c + spread c)) as [[_ B']|[-> B']]; [lra|].
    destruct (Rltb_spec (Rabs (expand c + spread c - d')) (lin_res c / 100)) as [[-> X]|[-> X]].
    + assert (Rabs (expand c + spread c - d) < lin_res c / 100); [|apply Rltb_iff in H; rewrite H; lia].
      rewrite Rabs_left1 in X by lra. rewrite Rabs_left1 by lra. lra.
    + match goal with |- context [Rltb ?a ?b] => destruct (Rltb a b) end; [apply C0|apply Z.le_refl].
Qed.
Lemma edges_same p l : Forall (fun v => v = p) l -> forall e, In e (edges l) -> e = (p, p).
Proof.
  induction l as [|u l IH]; [intros _ e []|]. intros H e. inversion H as [|? ? Eu Hl]; subst. destruct l as [|v l]; [intros []|]. inversion Hl; subst. cbn [edges]. intros [<-|He]; [reflexivity|apply IH; assumption].
Qed.
Lemma round_placed c pts fp x y a : point_shaped pts -> polygon_of pts = Some fp ->
  radius fp = 0 /\ Forall (fun v => v = V2 (IZR x * lin_res c) (IZR y * lin_res c)) (placed c fp x y a) /\ (exists e, In e (edges (placed c fp x y a))) /\ placed c fp x y a <> [].
Proof.
  intros R F. apply polygon_of_close in F as [-> L].
  assert (Rc : Forall (fun v => v = V2 0 0) (close pts)).
  { destruct pts as [|u l]; [constructor|]. cbn [close]. inversion R; subst. apply Forall_app. split; [exact R|]. constructor; [reflexivity|constructor]. }
  split.
  - destruct (radius_spec (close pts)) as (_ & _ & [->|(p & Hp & ->)]); [reflexivity|]. rewrite Forall_forall in Rc. rewrite (Rc p Hp). unfold norm2. cbn [vx vy]. replace (0 * 0 + 0 * 0) with 0 by ring. apply sqrt_0.
  - split.
    + apply Forall_forall. intros v Hv. unfold placed, move in Hv. apply in_map_iff in Hv as (u & <- & Hu). rewrite Forall_forall in Rc. rewrite (Rc u Hu). unfold move1. cbn [vx vy]. f_equal; ring.
    + destruct pts as [|u1 [|u2 l]]; cbn in L; try lia. split; [|discriminate]. unfold placed, move. cbn [close app map edges]. destruct l as [|u3 l]; [cbn in L; lia|]. eexists. left. reflexivity.
Qed.
Lemma round_template c pts fp x y a : point_shaped pts -> polygon_of pts = Some fp ->
  template_cell c fp x y a = Ok (if ((x =? 0) && (y =? 0))%Z then 100%Z else cost_at c (Rmin FLT_MAX (vdist (V2 0 0) (V2 (IZR x * lin_res c) (IZR y * lin_res c))))).
Proof.
  intros R F. destruct (round_placed c pts fp x y a R F) as (R0 & Pl & (e0 & He0) & Nn). unfold template_cell. cbv zeta. fold (placed c fp x y a).
  set (p := V2 (IZR x * lin_res c) (IZR y * lin_res c)) in *. pose proof (edges_same p _ Pl) as Ed.
  assert (I : inside (placed c fp x y a) (V2 0 0) = Ok false).
  { rewrite inside_count by exact Nn. unfold count. replace (filter (crossing (V2 0 0)) (edges (placed c fp x y a))) with (@nil (vec2 * vec2)); [reflexivity|].
    symmetry. assert (Q : forall l, (forall e, In e l -> e = (p, p)) -> filter (crossing (V2 0 0)) l = []); [|apply Q, Ed].
    induction l as [|e l IH]; intros H; [reflexivity|]. cbn [filter]. rewrite (H e (or_introl eq_refl)). destruct (crossing (V2 0 0) (p, p)) eqn:Cr; [|apply IH; intros; apply H; right; assumption].
    exfalso. apply crossing_iff in Cr. unfold up in Cr. lra. }
  rewrite I. cbn [bind]. destruct (pdist_spec (placed c fp x y a) (V2 0 0) Nn) as (d & Edd & P1 & P2 & P3). rewrite Edd. cbn [bind].
  assert (On : forall q, on_outline (placed c fp x y a) q <-> q = p).
  { intros q. split.
    - intros (e & He & (t & _ & ->)). rewrite (Ed e He). cbn [fst snd]. destruct p. cbn. f_equal; ring.
    - intros ->. exists e0. split; [exact He0|]. rewrite (Ed e0 He0). exists 0. split; [lra|]. cbn [fst snd]. destruct p. cbn. f_equal; ring. }
  assert (Dm : d = Rmin FLT_MAX (vdist (V2 0 0) p)).
  { pose proof (P2 p (proj2 (On p) eq_refl)) as Q. destruct P3 as [->|(q & Hq & ->)]; [rewrite Rmin_left by exact Q; reflexivity|]. apply On in Hq. subst q. rewrite Rmin_right by exact P1. reflexivity. }
  rewrite <- Dm. rewrite R0. destruct (Req_EM_T 0 0); [|lra]. cbn [andb]. reflexivity.
Qed.
(** The template of a round robot falls off in every direction, so the shortcut of drawing leaves nothing out. *)
Theorem C83_round_templates_fall_off c pts fp k : good_params c -> point_shaped pts -> polygon_of pts = Some fp -> template_of c fp k -> falls_off k.
Proof.
  intros G R F [_ T].
  assert (Tv : forall x y a, f_tmpl k x y a = if ((x =? 0) && (y =? 0))%Z then 100%Z else cost_at c (Rmin FLT_MAX (vdist (V2 0 0) (V2 (IZR x * lin_res c) (IZR y * lin_res c))))).
  { intros x y a. specialize (T x y a). rewrite (round_template c pts fp x y a R F) in T. congruence. }
  assert (Rg : forall x y a, (0 <= f_tmpl k x y a <= 100)%Z). { intros x y a. rewrite Tv. destruct (_ && _)%bool; [lia|apply cost_at_range; exact G]. }
  assert (Mo : forall x y x' y' a, (x' * x' <= x * x)%Z -> (y' * y' <= y * y)%Z -> (f_tmpl k x y a <= f_tmpl k x' y' a)%Z).
  { intros x y x' y' a Hx Hy. rewrite (Tv x' y' a). destruct ((x' =? 0) && (y' =? 0))%Z eqn:Z'; [apply Rg|]. rewrite Tv.
    replace ((x =? 0) && (y =? 0))%Z with false by nia. apply cost_at_falls; [exact G|].
    assert (V : vdist (V2 0 0) (V2 (IZR x' * lin_res c) (IZR y' * lin_res c)) <= vdist (V2 0 0) (V2 (IZR x * lin_res c) (IZR y * lin_res c))).
    { unfold vdist. cbn [vx vy]. apply sqrt_le_1_alt. apply IZR_le in Hx, Hy. rewrite !mult_IZR in Hx, Hy.
      assert (0 <= lin_res c * lin_res c) by nra. nra. }
    apply Rle_min_compat_l. exact V. }
  intros a dx dy _ _. split; [apply Rg|]. repeat split; intros H; apply Mo; nia.
Qed.

(** The costmap node, with a static output as its first layer, publishes the inflated base map when it receives one. *)
Theorem C83_the_costmap_is_published b n n' ps l ls : s_layers (n_stack n) = l :: ls -> l_kind l = StaticOut -> step n (EvBase b) = Ok (n', ps) ->
  exists m rest, base_map (s_root (n_stack n)) (b_w b) (b_h b) (s_ang (n_stack n)) (b_data b) = Ok m /\ ps = PubMap m :: rest.
Proof.
  intros Hl Kl E. cbn [step] in E. unfold Layers.cb_map, set_base in E. destruct (_ && _)%bool; [|discriminate].
  destruct (base_map _ _ _ _ _) as [m|] eqn:Em; [|discriminate]. cbn [bind] in E. rewrite Hl in E. cbn [map chain] in E.
  unfold entry in E at 1. cbn [l_kind l_region l_prev l_over l_oprev l_msg] in E. rewrite Kl in E.
  destruct (bitblt _ _ _) as [bb|]; [|discriminate]. cbn [bind] in E. destruct (chain _ _ _ _) as [cc|]; [|discriminate]. cbn [bind fst snd] in E.
  destruct (replay _ _) as [rr|]; [|discriminate]. cbn [bind fst snd app] in E. exists m. eexists. split; [reflexivity|]. injection E as _ <-. reflexivity.
Qed.
