(** Proofs about drawing grids into the costmap; theorems are in InflateProps.v. *)
From Verif Require Import Common CSpace CSpaceProps Inflate.
Local Open Scope Z_scope.

(** [m'] has the cells of [m] raised to contributions [P cell cost]. *)
Definition raised_at (P : Z -> Prop) (v v' : Z) : Prop :=
  v <= v' /\ (forall c, P c -> c <= v') /\ (v' = v \/ P v').
Definition raised (P : cell -> Z -> Prop) (m m' : cmap) : Prop :=
  wf m' /\ same_dims m m' /\ forall q, in_map m q -> raised_at (P q) (peek m q) (peek m' q).
(** Some cells set to -1. *)
Definition cleared (S : cell -> Prop) (m m' : cmap) : Prop :=
  wf m' /\ same_dims m m' /\ forall q, in_map m q ->
    (S q -> peek m' q = -1) /\ (peek m' q = peek m q \/ (S q /\ peek m' q = -1)).

Lemma raised_none m : wf m -> raised (fun _ _ => False) m m.
Proof. intros W. split; [assumption|]. split; [apply same_dims_refl|]. intros q _. split; [lia|]. split; [tauto|auto]. Qed.
Lemma raised_ext P Q m m' : (forall q c, in_map m q -> P q c <-> Q q c) -> raised P m m' -> raised Q m m'.
Proof.
  intros E (W & D & H). split; [assumption|]. split; [assumption|]. intros q I. destruct (H q I) as (A & B & C).
  split; [assumption|]. split.
  - intros c Hc. apply B, E; assumption.
  - destruct C as [C|C]; [auto|]. right. apply E; assumption.
Qed.

Lemma raised_fold {A} (f : cmap -> A -> outcome cmap) (P : A -> cell -> Z -> Prop) (l : list A) m0 m :
  wf m -> same_dims m0 m ->
  (forall m i, In i l -> wf m -> same_dims m0 m -> exists m', f m i = Ok m' /\ raised (P i) m m') ->
  exists m', foldM f l m = Ok m' /\ raised (fun q c => exists i, In i l /\ P i q c) m m'.
Proof.
  revert m. induction l as [|i l IH]; intros m W D H.
  - exists m. split; [reflexivity|]. eapply raised_ext; [|apply raised_none; assumption].
    intros q c _. split; [tauto|]. intros (i & [] & _).
  - destruct (H m i (or_introl eq_refl) W D) as (m1 & E1 & W1 & D1 & H1).
    destruct (IH m1 W1 (same_dims_trans _ _ _ D D1) (fun m j Hj => H m j (or_intror Hj))) as (m2 & E2 & W2 & D2 & H2).
    exists m2. cbn [foldM]. rewrite E1. cbn [bind]. split; [assumption|]. split; [assumption|].
    split; [eapply same_dims_trans; eassumption|]. intros q I.
    destruct (H1 q I) as (A1 & B1 & C1). destruct (H2 q (proj1 (same_dims_in_map _ _ q D1) I)) as (A2 & B2 & C2).
    split; [lia|]. split.
    + intros c (j & [<-|Hj] & Hc); [specialize (B1 c Hc); lia|]. apply B2. eauto.
    + destruct C2 as [C2|(j & Hj & C2)].
      * rewrite C2. destruct C1 as [C1|C1]; [auto|]. right. exists i. split; [left; auto|exact C1].
      * right. exists j. split; [right; auto|exact C2].
Qed.

Lemma cleared_none m : wf m -> cleared (fun _ => False) m m.
Proof. intros W. split; [assumption|]. split; [apply same_dims_refl|]. intros q _. split; [tauto|auto]. Qed.
Lemma cleared_ext P Q m m' : (forall q, in_map m q -> P q <-> Q q) -> cleared P m m' -> cleared Q m m'.
Proof.
  intros E (W & D & H). split; [assumption|]. split; [assumption|]. intros q I. destruct (H q I) as (A & B). split.
  - intros Hq. apply A, E; assumption.
  - destruct B as [B|[B1 B2]]; [auto|]. right. split; [apply E|]; assumption.
Qed.
Lemma cleared_fold {A} (f : cmap -> A -> outcome cmap) (P : A -> cell -> Prop) (l : list A) m0 m :
  wf m -> same_dims m0 m ->
  (forall m i, In i l -> wf m -> same_dims m0 m -> exists m', f m i = Ok m' /\ cleared (P i) m m') ->
  exists m', foldM f l m = Ok m' /\ cleared (fun q => exists i, In i l /\ P i q) m m'.
Proof.
  revert m. induction l as [|i l IH]; intros m W D H.
  - exists m. split; [reflexivity|]. eapply cleared_ext; [|apply cleared_none; assumption].
    intros q _. split; [tauto|]. intros (i & [] & _).
  - destruct (H m i (or_introl eq_refl) W D) as (m1 & E1 & W1 & D1 & H1).
    destruct (IH m1 W1 (same_dims_trans _ _ _ D D1) (fun m j Hj => H m j (or_intror Hj))) as (m2 & E2 & W2 & D2 & H2).
    exists m2. cbn [foldM]. rewrite E1. cbn [bind]. split; [assumption|]. split; [assumption|].
    split; [eapply same_dims_trans; eassumption|]. intros q I.
    destruct (H1 q I) as (A1 & B1). destruct (H2 q (proj1 (same_dims_in_map _ _ q D1) I)) as (A2 & B2). split.
    + intros (j & [<-|Hj] & Hc); [|apply A2; eauto]. specialize (A1 Hc). destruct B2 as [B2|[_ B2]]; congruence.
    + destruct B2 as [B2|[(j & Hj & B2) B3]].
      * rewrite B2. destruct B1 as [B1|[B1 B1']]; [auto|]. right. split; [exists i; split; [left; auto|assumption]|assumption].
      * right. split; [exists j; split; [right; auto|assumption]|assumption].
Qed.

Lemma setc_cleared m x y a : wf m -> in_map m (x, y, a) ->
  exists m', setc m x y a (-1) = Ok m' /\ cleared (fun q => q = (x, y, a)) m m'.
Proof.
  intros W I. destruct (setc_ok m x y a (-1) W I) as (m' & E & W' & D & P). exists m'. split; [assumption|].
  split; [assumption|]. split; [assumption|]. intros q Iq. rewrite P by assumption.
  destruct (cell_eqb q (x, y, a)) eqn:C.
  - apply cell_eqb_iff in C. auto.
  - split; [|auto]. intros E2. apply cell_eqb_iff in E2. congruence.
Qed.

Lemma raise_cell_ok m x y a c : wf m -> in_map m (x, y, a) ->
  exists m', raise_cell m x y a c = Ok m' /\ raised (fun q c' => q = (x, y, a) /\ c' = c /\ 0 < c) m m'.
Proof.
  intros W I. unfold raise_cell. rewrite getc_ok by assumption. cbn [bind].
  destruct (Z.ltb_spec 0 c); cbn [andb]; [destruct (Z.ltb_spec (peek m (x, y, a)) c)|].
  - destruct (setc_ok m x y a c W I) as (m' & E & W' & D & P). exists m'. split; [assumption|].
    split; [assumption|]. split; [assumption|]. intros q Iq. rewrite P by assumption.
    destruct (cell_eqb q (x, y, a)) eqn:C.
    + apply cell_eqb_iff in C. subst q. split; [lia|]. split; [intros c' (_ & -> & _); lia|]. auto.
    + split; [lia|]. split; [|auto]. intros c' (E2 & _). apply cell_eqb_iff in E2. congruence.
  - exists m. split; [reflexivity|]. split; [assumption|]. split; [apply same_dims_refl|]. intros q Iq.
    split; [lia|]. split; [|auto]. intros c' (-> & -> & _). lia.
  - exists m. split; [reflexivity|]. split; [assumption|]. split; [apply same_dims_refl|]. intros q Iq.
    split; [lia|]. split; [|auto]. intros c' (_ & _ & ?). lia.
Qed.

Section Draw.
  Variable k : fcfg.
  Variable g : grid.
  Hypothesis Hr : 0 <= f_r k.
  Hypothesis Hw : 0 <= gw g.
  Hypothesis Hlen : Z.of_nat (length (gdata g)) = gw g * gh g.

  Definition value (i : Z) : Z := nth (Z.to_nat i) (gdata g) 0.
  Definition index (i : Z) : Prop := 0 <= i < gw g * gh g.

  Lemma in_cells i : In i (cells g) <-> index i.
  Proof. unfold cells. rewrite in_range_excl, Hlen. unfold index. tauto. Qed.
  Lemma msg_at_ok i : index i -> msg_at g i = Ok (value i).
  Proof. intros I. unfold msg_at. rewrite (proj2 (in_rangeb_iff _ _ _)) by (rewrite Hlen; exact I). reflexivity. Qed.
  Lemma index_coords i : index i -> 0 <= i mod gw g < gw g /\ 0 <= i / gw g < gh g /\ i = i / gw g * gw g + i mod gw g /\ 0 < gw g /\ 0 < gh g.
  Proof.
    unfold index. intros I. assert (0 < gw g) by (destruct (Z.eq_dec (gw g) 0) as [E|E]; [rewrite E in I|]; lia). assert (0 < gh g) by nia.
    pose proof (Z.mod_pos_bound i (gw g) ltac:(lia)). pose proof (Z.div_mod i (gw g) ltac:(lia)).
    assert (0 <= i / gw g) by (apply Z.div_pos; lia). assert (i / gw g < gh g) by (apply Z.div_lt_upper_bound; lia). lia.
  Qed.

  Definition mask_bound (border : bool) (nb self full : Z) : Z :=
    if border then 0 else if value self <=? value nb then 0 else full.
  Lemma bound_of_ok border nb self full : (border = false -> index nb) -> index self ->
    bound_of g border nb self full = Ok (mask_bound border nb self full).
  Proof.
    intros Hn Hs. unfold bound_of, mask_bound. destruct border; [reflexivity|].
    rewrite !msg_at_ok by auto. reflexivity.
  Qed.
  Definition the_range (i : Z) : Z * Z * Z * Z :=
    if gsame g then
      (mask_bound (i mod gw g =? 0) (i - 1) i (- f_r k), mask_bound (i mod gw g =? gw g - 1) (i + 1) i (f_r k),
       mask_bound (i / gw g =? 0) (i - gw g) i (- f_r k), mask_bound (i / gw g =? gh g - 1) (i + gw g) i (f_r k))
    else (- f_r k, f_r k, - f_r k, f_r k).

  Lemma get_range_ok i : index i -> get_range k g i = Ok (the_range i).
  Proof.
    intros I. unfold get_range, the_range. destruct (gsame g); [|reflexivity].
    destruct (index_coords i I) as (Hx & Hy & E & W & H). unfold masked_range.
    rewrite !bound_of_ok; auto; rewrite ?Z.eqb_neq; unfold index in *; intros; nia.
  Qed.
  Lemma range_bounds i : let '(x0, x1, y0, y1) := the_range i in
    - f_r k <= x0 <= 0 /\ 0 <= x1 <= f_r k /\ - f_r k <= y0 <= 0 /\ 0 <= y1 <= f_r k.
  Proof.
    unfold the_range, mask_bound. destruct (gsame g); [|lia].
    repeat match goal with |- context [if ?b then _ else _] => destruct b end; lia.
  Qed.

  Definition allowed (i dx dy : Z) : Prop :=
    let '(x0, x1, y0, y1) := the_range i in x0 <= dx <= x1 /\ y0 <= dy <= y1.
  (** Contribution of message cell [i] to the slice [yaw]. *)
  Definition contrib (m : cmap) (yaw i : Z) (q : cell) (c : Z) : Prop :=
    let '(qx, qy, qa) := q in qa = yaw /\ off_map m (gposx g i) (gposy g i) = false /\
    ((value i = 0 /\ qx = gposx g i /\ qy = gposy g i /\ c = 0) \/
     (0 < value i /\ allowed i (qx - gposx g i) (qy - gposy g i) /\
      c = c_quot (f_tmpl k (qx - gposx g i) (qy - gposy g i) yaw * value i) 100 /\ 0 < c)).

  Lemma off_map_dims m m' x y : same_dims m m' -> off_map m' x y = off_map m x y.
  Proof. intros (A & B & _). unfold off_map. rewrite A, B. reflexivity. Qed.
  Lemma off_map_false m x y : off_map m x y = false <-> 0 <= x < cw m /\ 0 <= y < ch m.
  Proof. unfold off_map. rewrite negb_false_iff, andb_true_iff, !in_rangeb_iff. tauto. Qed.

  Lemma draw_one_ok m yaw i : wf m -> 0 <= yaw < ca m -> index i ->
    exists m', draw_one k g yaw m i = Ok m' /\ raised (contrib m yaw i) m m'.
  Proof.
    intros W Ha I. unfold draw_one. rewrite msg_at_ok by assumption. cbn [bind].
    destruct (Z.ltb_spec (value i) 0).
    { exists m. split; [reflexivity|]. eapply raised_ext; [|apply raised_none; assumption].
      intros [[qx qy] qa] c _. unfold contrib. split; [tauto|]. lia. }
    destruct (off_map m (gposx g i) (gposy g i)) eqn:Eo.
    { exists m. split; [reflexivity|]. eapply raised_ext; [|apply raised_none; assumption].
      intros [[qx qy] qa] c _. unfold contrib. rewrite Eo. split; [tauto|]. intros (_ & ? & _); discriminate. }
    assert (Hin := Eo). apply off_map_false in Hin.
    destruct (Z.eqb_spec (value i) 0) as [Ez|Ez].
    { rewrite getc_ok by (cbn; tauto). cbn [bind].
      assert (B : forall qx qy qa c, contrib m yaw i (qx, qy, qa) c <-> qa = yaw /\ qx = gposx g i /\ qy = gposy g i /\ c = 0).
      { intros. unfold contrib. rewrite Eo, Ez. split; [intros (? & _ & [?|?]); [tauto|lia]|]. tauto. }
      destruct (Z.ltb_spec (peek m (gposx g i, gposy g i, yaw)) 0).
      - destruct (setc_ok m (gposx g i) (gposy g i) yaw 0 W ltac:(cbn; tauto)) as (m' & E & W' & D & P).
        exists m'. split; [assumption|]. split; [assumption|]. split; [assumption|].
        intros [[qx qy] qa] Iq. rewrite P by assumption.
        destruct (cell_eqb (qx, qy, qa) (gposx g i, gposy g i, yaw)) eqn:C.
        + apply cell_eqb_iff in C. injection C as -> -> ->. split; [lia|]. split; [|right; apply B; auto].
          intros c Hc. apply B in Hc. lia.
        + split; [lia|]. split; [|auto]. intros c Hc. apply B in Hc. destruct Hc as (-> & -> & -> & ->).
          rewrite (proj2 (cell_eqb_iff _ _) eq_refl) in C. discriminate.
      - exists m. split; [reflexivity|]. split; [assumption|]. split; [apply same_dims_refl|].
        intros [[qx qy] qa] Iq. split; [lia|]. split; [|auto]. intros c Hc. apply B in Hc.
        destruct Hc as (-> & -> & -> & ->). lia. }
    rewrite get_range_ok by assumption. cbn [bind]. pose proof (range_bounds i) as RB.
    destruct (the_range i) as [[[x0 x1] y0] y1] eqn:ER.
    set (gx := gposx g i) in *. set (gy := gposy g i) in *.
    set (P := fun y x (q : cell) c => q = (x, y, yaw) /\ c = c_quot (f_tmpl k (x - gx) (y - gy) yaw * value i) 100 /\
                 0 < c_quot (f_tmpl k (x - gx) (y - gy) yaw * value i) 100).
    set (ys := range_incl (Z.max (gy + y0) 0) (Z.min (gy + y1) (ch m - 1))).
    set (xs := range_incl (Z.max (gx + x0) 0) (Z.min (gx + x1) (cw m - 1))).
    match goal with |- context [foldM ?f ys m] => set (F := f) end.
    destruct (raised_fold F (fun y q c => exists x, In x xs /\ P y x q c) ys m m W (same_dims_refl m)) as (m' & E & R).
    { intros m1 y Hy W1 D1. unfold F. destruct D1 as (Dw & Dh & Dc). rewrite <- Dw. fold xs.
      apply (raised_fold _ (P y) xs m m1); [assumption|repeat split; assumption|].
      intros m2 x Hx W2 (Dw2 & Dh2 & Dc2). apply in_range_incl in Hx. unfold ys in Hy. apply in_range_incl in Hy.
      unfold te. rewrite !(proj2 (in_rangeb_iff _ _ _)) by lia. cbn [andb bind].
      apply raise_cell_ok; [assumption|]. cbn. rewrite <- Dw2, <- Dh2, <- Dc2. lia. }
    exists m'. split; [exact E|]. eapply raised_ext; [|exact R].
    intros [[qx qy] qa] c Iq. cbn in Iq. unfold contrib, P, allowed. rewrite ER. fold gx gy. rewrite Eo. split.
    - intros (y & Hy & x & Hx & Eq & -> & Hc). injection Eq as -> -> ->. unfold ys, xs in *. apply in_range_incl in Hy, Hx.
      split; [reflexivity|]. split; [reflexivity|]. right. split; [lia|]. split; [lia|]. split; [reflexivity|lia].
    - intros (-> & _ & [?|(Hv & (Hx & Hy) & -> & Hc)]); [lia|].
      exists qy. split; [unfold ys; apply in_range_incl; lia|]. exists qx. split; [unfold xs; apply in_range_incl; lia|].
      repeat split; assumption.
  Qed.

  (** Cells unknown in the message and before (kept unknown). *)
  Definition msg_unknown (q : cell) : Prop :=
    let '(qx, qy, _) := q in exists i, index i /\ gposx g i = qx /\ gposy g i = qy /\ value i < 0.

  Definition cell_spec (m : cmap) (q : cell) (v v' : Z) : Prop :=
    let kept := f_keep k = true /\ msg_unknown q /\ v < 0 in
    (kept -> v' = -1) /\
    (~ kept -> raised_at (fun c => exists i, index i /\ contrib m (snd q) i q c) v v').

  Lemma flags_ok m yaw l : wf m -> 0 <= yaw < ca m -> Forall index l ->
    exists b, flags g m yaw l = Ok (map (fun i => (i, b i)) l) /\
      forall i, b i = true <-> off_map m (gposx g i) (gposy g i) = false /\ value i < 0 /\ peek m (gposx g i, gposy g i, yaw) < 0.
  Proof.
    intros W Ha Hl.
    exists (fun i => negb (off_map m (gposx g i) (gposy g i)) && (value i <? 0) && (peek m (gposx g i, gposy g i, yaw) <? 0))%bool.
    split.
    - induction Hl as [|i l Hi Hl IH]; [reflexivity|]. cbn [flags map]. rewrite IH. unfold unknown_flag.
      destruct (off_map m (gposx g i) (gposy g i)) eqn:E; [reflexivity|].
      rewrite msg_at_ok by assumption. cbn [bind]. apply off_map_false in E. rewrite getc_ok by (cbn; tauto). reflexivity.
    - intros i. rewrite !andb_true_iff, negb_true_iff, !Z.ltb_lt. tauto.
  Qed.

  Lemma generate_yaw_ok m yaw : wf m -> 0 <= yaw < ca m ->
    exists m', generate_yaw k g m yaw = Ok m' /\ wf m' /\ same_dims m m' /\
      forall q, in_map m q -> (snd q = yaw -> cell_spec m q (peek m q) (peek m' q)) /\ (snd q <> yaw -> peek m' q = peek m q).
  Proof.
    intros W Ha. unfold generate_yaw.
    destruct (flags_ok m yaw (cells g) W Ha) as (b & Eb & Hb).
    { apply Forall_forall. intros i. apply in_cells. }
    set (buf := if f_keep k then map (fun i => (i, b i)) (cells g) else []).
    assert (E0 : (if f_keep k then flags g m yaw (cells g) else Ok []) = Ok buf).
    { unfold buf. destruct (f_keep k); [exact Eb|reflexivity]. }
    rewrite E0. cbn [bind].
    destruct (raised_fold (draw_one k g yaw) (contrib m yaw) (cells g) m m W (same_dims_refl m)) as (m1 & E1 & W1 & D1 & R1).
    { intros m1 i Hi W1 D1. apply in_cells in Hi. assert (Ha1 : 0 <= yaw < ca m1) by (destruct D1 as (_ & _ & <-); assumption).
      destruct (draw_one_ok m1 yaw i W1 Ha1 Hi) as (m2 & E2 & R2). exists m2. split; [assumption|].
      eapply raised_ext; [|exact R2]. intros [[qx qy] qa] c _. unfold contrib. rewrite (off_map_dims m m1) by assumption. tauto. }
    rewrite E1. cbn [bind].
    match goal with |- context [foldM ?f buf m1] => set (F := f) end.
    destruct (cleared_fold F (fun ib q => snd ib = true /\ q = (gposx g (fst ib), gposy g (fst ib), yaw)) buf m m1 W1 D1) as (m2 & E2 & W2 & D2 & C2).
    { intros m2 [i bi] Hin W2 D2. unfold F. destruct bi.
      - assert (Hbi : b i = true).
        { unfold buf in Hin. destruct (f_keep k); [|destruct Hin]. apply in_map_iff in Hin. destruct Hin as (j & Ej & _).
          injection Ej as -> Ej. exact Ej. }
        apply Hb in Hbi. destruct Hbi as (Ho & _). rewrite (off_map_dims m m2), Ho by assumption.
        apply off_map_false in Ho. destruct D2 as (Dw & Dh & Dc).
        destruct (setc_cleared m2 (gposx g i) (gposy g i) yaw W2) as (m3 & E3 & R3); [cbn; lia|].
        exists m3. split; [assumption|]. eapply cleared_ext; [|exact R3]. intros q _. cbn. tauto.
      - exists m2. split; [reflexivity|]. eapply cleared_ext; [|apply cleared_none; assumption].
        intros q _. cbn. split; [tauto|]. intros [? _]; discriminate. }
    exists m2. split; [assumption|]. split; [assumption|]. split; [eapply same_dims_trans; eassumption|].
    intros q Iq. destruct (R1 q Iq) as (A1 & B1 & C1).
    destruct (C2 q (proj1 (same_dims_in_map _ _ q D1) Iq)) as (A2 & B2).
    assert (S : (exists ib, In ib buf /\ snd ib = true /\ q = (gposx g (fst ib), gposy g (fst ib), yaw)) <->
                (snd q = yaw /\ f_keep k = true /\ msg_unknown q /\ peek m q < 0)).
    { destruct q as [[qx qy] qa]. cbn [snd]. split.
      - intros ([i bi] & Hin & Hbi & Eq). cbn [fst snd] in *. injection Eq as -> -> ->. subst bi.
        unfold buf in Hin. destruct (f_keep k); [|destruct Hin]. apply in_map_iff in Hin. destruct Hin as (j & Ej & Hj).
        injection Ej as -> Ej. apply Hb in Ej. apply in_cells in Hj. destruct Ej as (Eo & Ev & Ep).
        repeat split; auto. exists i. auto.
      - intros (-> & Ek & (i & Hi & <- & <- & Hv) & Hp). exists (i, true). cbn [fst snd].
        split; [|auto]. unfold buf. rewrite Ek. apply in_map_iff. exists i. split; [|apply in_cells; assumption].
        f_equal. apply Hb. split; [|auto]. apply off_map_false. cbn in Iq. tauto. }
    rewrite S in A2, B2. split.
    - intros Eq. unfold cell_spec. split.
      + intros (K1 & K2 & K3). apply A2. auto.
      + intros NK. destruct B2 as [B2|[(_ & B2) _]]; [|tauto]. rewrite B2. rewrite Eq.
        split; [assumption|]. split.
        * intros c (i & Hi & Hc). apply B1. exists i. split; [apply in_cells; assumption|assumption].
        * destruct C1 as [C1|(i & Hi & C1)]; [auto|]. right. exists i. split; [apply in_cells; assumption|assumption].
    - intros Nq. destruct B2 as [B2|[(? & _) _]]; [|congruence]. rewrite B2.
      destruct C1 as [C1|(i & _ & C1)]; [assumption|]. exfalso. destruct q as [[qx qy] qa]. unfold contrib in C1. cbn in Nq. tauto.
  Qed.

  Lemma cell_spec_dims m m' q v v' : same_dims m m' -> cell_spec m q v v' <-> cell_spec m' q v v'.
  Proof.
    intros D. assert (E : forall a i c, contrib m a i q c <-> contrib m' a i q c).
    { intros. destruct q as [[qx qy] qa]. unfold contrib. rewrite (off_map_dims m m') by assumption. tauto. }
    unfold cell_spec, raised_at. split; intros [A B]; (split; [exact A|]); intros N; specialize (B N);
    destruct B as (B1 & B2 & B3); (split; [exact B1|]); split.
    - intros c (i & Hi & Hc). apply B2. exists i. split; [assumption|apply E; assumption].
    - destruct B3 as [B3|(i & Hi & B3)]; [auto|]. right. exists i. split; [assumption|apply E; assumption].
    - intros c (i & Hi & Hc). apply B2. exists i. split; [assumption|apply E; assumption].
    - destruct B3 as [B3|(i & Hi & B3)]; [auto|]. right. exists i. split; [assumption|apply E; assumption].
  Qed.

  Lemma generate_yaws_ok l m : wf m -> NoDup l -> (forall a, In a l -> 0 <= a < ca m) ->
    exists m', foldM (generate_yaw k g) l m = Ok m' /\ wf m' /\ same_dims m m' /\
      forall q, in_map m q -> (In (snd q) l -> cell_spec m q (peek m q) (peek m' q)) /\ (~ In (snd q) l -> peek m' q = peek m q).
  Proof.
    revert m. induction l as [|a l IH]; intros m W N Hl.
    - exists m. split; [reflexivity|]. split; [assumption|]. split; [apply same_dims_refl|]. intros q _. split; [intros []|auto].
    - inversion N as [|? ? Na N']; subst.
      destruct (generate_yaw_ok m a W (Hl a (or_introl eq_refl))) as (m1 & E1 & W1 & D1 & H1).
      assert (Hl1 : forall b, In b l -> 0 <= b < ca m1).
      { intros b Hb. destruct D1 as (_ & _ & <-). apply Hl. right; assumption. }
      destruct (IH m1 W1 N' Hl1) as (m2 & E2 & W2 & D2 & H2).
      exists m2. cbn [foldM]. rewrite E1. cbn [bind]. split; [assumption|]. split; [assumption|].
      split; [eapply same_dims_trans; eassumption|]. intros q I.
      destruct (H1 q I) as (A1 & B1). destruct (H2 q (proj1 (same_dims_in_map _ _ q D1) I)) as (A2 & B2). split.
      + intros [Eq|Hq].
        * rewrite B2 by (rewrite <- Eq; assumption). auto.
        * specialize (A2 Hq). assert (snd q <> a) by congruence. rewrite B1 in A2 by assumption.
          apply (cell_spec_dims m m1) in A2; assumption.
      + intros Nq. rewrite B2, B1; auto.
        * intros Eq. apply Nq. left; auto.
        * intros Hq. apply Nq. right; auto.
  Qed.

  (** Cells cleared first in OVERWRITE mode. *)
  Definition clear_target (m : cmap) (q : cell) : Prop :=
    let '(qx, qy, qa) := q in f_clear k = true /\ exists i xp yp, index i /\ 0 <= value i /\
      f_r k <= gsc g (i mod gw g) < gw g - f_r k /\ f_r k <= gsc g (i / gw g) < gh g - f_r k /\
      0 <= xp < gup g /\ 0 <= yp < gup g /\ qx = gsc g (i mod gw g) + gox g + xp /\ qy = gsc g (i / gw g) + goy g + yp.

  Lemma clear_area_ok m : wf m -> exists m', clear_area k g m = Ok m' /\ cleared (clear_target m) m m'.
  Proof.
    intros W. unfold clear_area. destruct (f_clear k) eqn:Ec.
    2:{ exists m. split; [reflexivity|]. eapply cleared_ext; [|apply cleared_none; assumption].
        intros [[qx qy] qa] _. unfold clear_target. rewrite Ec. split; [tauto|]. intros [? _]; discriminate. }
    set (P := fun yaw i (q : cell) => exists yp, In yp (range_excl 0 (gup g)) /\ exists xp, In xp (range_excl 0 (gup g)) /\
       0 <= value i /\ f_r k <= gsc g (i mod gw g) < gw g - f_r k /\ f_r k <= gsc g (i / gw g) < gh g - f_r k /\
       q = (gsc g (i mod gw g) + gox g + xp, gsc g (i / gw g) + goy g + yp, yaw)).
    destruct (cleared_fold (fun m yaw => foldM (clear_one k g yaw) (cells g) m)
       (fun yaw q => exists i, In i (cells g) /\ P yaw i q) (range_excl 0 (ca m)) m m W (same_dims_refl m)) as (m' & E & C).
    { intros m1 yaw Hyaw W1 D1. apply in_range_excl in Hyaw.
      apply (cleared_fold _ (P yaw) (cells g) m m1 W1 D1). clear m1 W1 D1.
      intros m1 i Hi W1 D1. apply in_cells in Hi. unfold clear_one. rewrite msg_at_ok by assumption. cbn [bind].
      assert (Skip : ~ (0 <= value i /\ f_r k <= gsc g (i mod gw g) < gw g - f_r k /\ f_r k <= gsc g (i / gw g) < gh g - f_r k) ->
          exists m', Ok m1 = Ok m' /\ cleared (P yaw i) m1 m').
      { intros N. exists m1. split; [reflexivity|]. eapply cleared_ext; [|apply cleared_none; assumption].
        intros q _. unfold P. split; [tauto|]. intros (yp & _ & xp & _ & A & B & C & _). tauto. }
      destruct (Z.ltb_spec (value i) 0); [apply Skip; lia|].
      destruct (Z.ltb_spec (gsc g (i mod gw g)) (f_r k)); cbn [orb]; [apply Skip; lia|].
      destruct (Z.leb_spec (gw g - f_r k) (gsc g (i mod gw g))); [apply Skip; lia|].
      destruct (Z.ltb_spec (gsc g (i / gw g)) (f_r k)); cbn [orb]; [apply Skip; lia|].
      destruct (Z.leb_spec (gh g - f_r k) (gsc g (i / gw g))); [apply Skip; lia|]. clear Skip.
      apply (cleared_fold _ (fun yp q => exists xp, In xp (range_excl 0 (gup g)) /\
       0 <= value i /\ f_r k <= gsc g (i mod gw g) < gw g - f_r k /\ f_r k <= gsc g (i / gw g) < gh g - f_r k /\
       q = (gsc g (i mod gw g) + gox g + xp, gsc g (i / gw g) + goy g + yp, yaw)) _ m m1 W1 D1). clear m1 W1 D1.
      intros m1 yp Hyp W1 D1. destruct (in_rangeb 0 (gsc g (i / gw g) + goy g + yp) (ch m1)) eqn:Ey.
      - apply in_rangeb_iff in Ey.
        apply (cleared_fold _ (fun xp q => 0 <= value i /\ f_r k <= gsc g (i mod gw g) < gw g - f_r k /\ f_r k <= gsc g (i / gw g) < gh g - f_r k /\
           q = (gsc g (i mod gw g) + gox g + xp, gsc g (i / gw g) + goy g + yp, yaw)) _ m1 m1 W1 (same_dims_refl m1)).
        intros m2 xp Hxp W2 D2. destruct (in_rangeb 0 (gsc g (i mod gw g) + gox g + xp) (cw m2)) eqn:Ex.
        + apply in_rangeb_iff in Ex.
          destruct (setc_cleared m2 (gsc g (i mod gw g) + gox g + xp) (gsc g (i / gw g) + goy g + yp) yaw W2) as (m3 & E3 & R3).
          { destruct D1 as (Dw & Dh & Dc), D2 as (Dw2 & Dh2 & Dc2). cbn. lia. }
          exists m3. split; [assumption|]. eapply cleared_ext; [|exact R3]. intros q _. cbn. split; [intros ->; repeat split; lia|tauto].
        + exists m2. split; [reflexivity|]. eapply cleared_ext; [|apply cleared_none; assumption].
          intros q Iq. split; [tauto|]. intros (_ & _ & _ & ->). cbn in Iq.
          rewrite (proj2 (in_rangeb_iff _ _ _)) in Ex by tauto. discriminate.
      - exists m1. split; [reflexivity|]. eapply cleared_ext; [|apply cleared_none; assumption].
        intros q Iq. split; [tauto|]. intros (xp & _ & _ & _ & _ & ->). cbn in Iq.
        rewrite (proj2 (in_rangeb_iff _ _ _)) in Ey by tauto. discriminate. }
    exists m'. split; [exact E|]. eapply cleared_ext; [|exact C].
    intros [[qx qy] qa] Iq. cbn in Iq. unfold clear_target, P. rewrite Ec. split.
    - intros (yaw & Hyaw & i & Hi & yp & Hyp & xp & Hxp & A & B & C0 & Eq). injection Eq as -> -> ->.
      split; [reflexivity|]. apply in_cells in Hi. apply in_range_excl in Hyp, Hxp. exists i, xp, yp. auto 10.
    - intros (_ & i & xp & yp & Hi & A & B & C0 & Hxp & Hyp & -> & ->). exists qa. split; [apply in_range_excl; tauto|].
      exists i. split; [apply in_cells; assumption|]. exists yp. split; [apply in_range_excl; assumption|].
      exists xp. split; [apply in_range_excl; assumption|]. auto 10.
  Qed.

  Lemma generate_ok m : wf m -> exists m', generate k g m = Ok m' /\ wf m' /\ same_dims m m' /\
    forall q, in_map m q -> exists v, (clear_target m q -> v = -1) /\ (~ clear_target m q -> v = peek m q) /\
       cell_spec m q v (peek m' q).
  Proof.
    intros W. unfold generate. destruct (clear_area_ok m W) as (m1 & E1 & W1 & D1 & C1). rewrite E1. cbn [bind].
    destruct (generate_yaws_ok (range_excl 0 (ca m1)) m1 W1) as (m2 & E2 & W2 & D2 & H2).
    { apply range_incl_NoDup. } { intros a. apply in_range_excl. }
    exists m2. split; [assumption|]. split; [assumption|]. split; [eapply same_dims_trans; eassumption|].
    intros q I. exists (peek m1 q). destruct (C1 q I) as (A & B). split; [assumption|]. split.
    - intros N. destruct B as [B|[B _]]; [assumption|tauto].
    - assert (I1 : in_map m1 q) by (apply (same_dims_in_map m m1 q D1); assumption).
      destruct (H2 q I1) as (S & _). apply (cell_spec_dims m m1); [assumption|]. apply S.
      destruct q as [[qx qy] qa]. cbn in I1 |- *. apply in_range_excl. tauto.
  Qed.

  (** ** The neighbour mask loses nothing if the template falls off monotonically *)
  Definition monotone_template : Prop := forall a dx dy, - f_r k <= dx <= f_r k -> - f_r k <= dy <= f_r k ->
    0 <= f_tmpl k dx dy a /\
    (dx < 0 -> f_tmpl k dx dy a <= f_tmpl k (dx + 1) dy a) /\ (0 < dx -> f_tmpl k dx dy a <= f_tmpl k (dx - 1) dy a) /\
    (dy < 0 -> f_tmpl k dx dy a <= f_tmpl k dx (dy + 1) a) /\ (0 < dy -> f_tmpl k dx dy a <= f_tmpl k dx (dy - 1) a).

  Lemma masked_cover (Hs : gsame g = true) (Hmono : monotone_template) a qx qy : 0 <= qx < gw g -> 0 <= qy < gh g ->
    forall n i, (Z.to_nat (Z.abs (qx - i mod gw g) + Z.abs (qy - i / gw g)) <= n)%nat -> index i -> 0 < value i ->
      Z.abs (qx - i mod gw g) <= f_r k -> Z.abs (qy - i / gw g) <= f_r k ->
      exists j, index j /\ value i <= value j /\ allowed j (qx - j mod gw g) (qy - j / gw g) /\
        f_tmpl k (qx - i mod gw g) (qy - i / gw g) a <= f_tmpl k (qx - j mod gw g) (qy - j / gw g) a /\
        Z.min (i mod gw g) qx <= j mod gw g <= Z.max (i mod gw g) qx /\ Z.min (i / gw g) qy <= j / gw g <= Z.max (i / gw g) qy.
  Proof.
    intros Hqx Hqy. induction n as [|n IH]; intros i Hn Hi Hv Hx Hy;
      destruct (index_coords i Hi) as (Cx & Cy & Ei & Cw & Chh).
    - exists i. split; [assumption|]. split; [lia|]. split; [|split; [lia|lia]].
      unfold allowed. pose proof (range_bounds i) as RB. destruct (the_range i) as [[[x0 x1] y0] y1]. lia.
    - set (dx := qx - i mod gw g) in *. set (dy := qy - i / gw g) in *.
      assert (Step : forall j, index j -> value i <= value j -> f_tmpl k dx dy a <= f_tmpl k (qx - j mod gw g) (qy - j / gw g) a ->
         Z.abs (qx - j mod gw g) + Z.abs (qy - j / gw g) < Z.abs dx + Z.abs dy ->
         Z.min (i mod gw g) qx <= j mod gw g <= Z.max (i mod gw g) qx -> Z.min (i / gw g) qy <= j / gw g <= Z.max (i / gw g) qy ->
         exists j, index j /\ value i <= value j /\ allowed j (qx - j mod gw g) (qy - j / gw g) /\
           f_tmpl k dx dy a <= f_tmpl k (qx - j mod gw g) (qy - j / gw g) a /\
           Z.min (i mod gw g) qx <= j mod gw g <= Z.max (i mod gw g) qx /\ Z.min (i / gw g) qy <= j / gw g <= Z.max (i / gw g) qy).
      { intros j Hj Hvj Ht Hd Hbx Hby. destruct (IH j ltac:(lia) Hj ltac:(lia) ltac:(lia) ltac:(lia)) as (j' & J1 & J2 & J3 & J4 & J5 & J6).
        exists j'. split; [assumption|]. split; [lia|]. split; [assumption|]. split; [lia|]. lia. }
      assert (Mod : forall d, 0 <= i mod gw g + d < gw g -> (i + d) mod gw g = i mod gw g + d /\ (i + d) / gw g = i / gw g).
      { intros d Hd. replace (i + d) with ((i mod gw g + d) + (i / gw g) * gw g) by lia.
        rewrite Z.mod_add, Z.div_add, Z.mod_small, Z.div_small by lia. lia. }
      assert (Row : forall e, (i + e * gw g) mod gw g = i mod gw g /\ (i + e * gw g) / gw g = i / gw g + e).
      { intros e. rewrite Z.mod_add, Z.div_add by lia. lia. }
      assert (IX : forall j, 0 <= j mod gw g < gw g -> 0 <= j / gw g < gh g -> index j).
      { intros j A B. unfold index. pose proof (Z.div_mod j (gw g) ltac:(lia)). nia. }
      assert (HM := Hmono a dx dy ltac:(lia) ltac:(lia)). destruct HM as (T0 & T1 & T2 & T3 & T4).
      destruct (Z_lt_le_dec dx 0) as [L|L].
      + destruct (Mod (-1) ltac:(lia)) as [M1 M2].
        destruct (Z_le_gt_dec (value i) (value (i + -1))) as [V|V].
        * apply (Step (i + -1)); rewrite ?M1, ?M2; try lia. { apply IX; rewrite ?M1, ?M2; lia. }
          replace (qx - (i mod gw g + -1)) with (dx + 1) by lia. apply T1. lia.
        * assert (X0 : mask_bound (i mod gw g =? 0) (i - 1) i (- f_r k) = - f_r k).
          { unfold mask_bound. rewrite (proj2 (Z.eqb_neq _ _)) by lia. replace (i - 1) with (i + -1) by lia.
            rewrite (proj2 (Z.leb_gt _ _)) by lia. reflexivity. }
          destruct (Z_lt_le_dec dy 0) as [Ly|Ly]; [|destruct (Z_lt_le_dec 0 dy) as [Ly2|Ly2]].
          -- destruct (Row (-1)) as [R1 R2].
             destruct (Z_le_gt_dec (value i) (value (i + -1 * gw g))) as [Vy|Vy].
             ++ apply (Step (i + -1 * gw g)); rewrite ?R1, ?R2; try lia. { apply IX; rewrite ?R1, ?R2; lia. }
                replace (qy - (i / gw g + -1)) with (dy + 1) by lia. apply T3. lia.
             ++ exists i. split; [assumption|]. split; [lia|]. split; [|split; [fold dx dy; apply Z.le_refl|lia]].
                unfold allowed. pose proof (range_bounds i) as RB. unfold the_range in *. rewrite Hs in *. rewrite X0 in *.
                assert (Y0 : mask_bound (i / gw g =? 0) (i - gw g) i (- f_r k) = - f_r k).
                { unfold mask_bound. rewrite (proj2 (Z.eqb_neq _ _)) by lia. replace (i - gw g) with (i + -1 * gw g) by lia.
                  rewrite (proj2 (Z.leb_gt _ _)) by lia. reflexivity. }
                rewrite Y0 in *. fold dx dy. lia.
          -- destruct (Row 1) as [R1 R2].
             destruct (Z_le_gt_dec (value i) (value (i + 1 * gw g))) as [Vy|Vy].
             ++ apply (Step (i + 1 * gw g)); rewrite ?R1, ?R2; try lia. { apply IX; rewrite ?R1, ?R2; lia. }
                replace (qy - (i / gw g + 1)) with (dy - 1) by lia. apply T4. lia.
             ++ exists i. split; [assumption|]. split; [lia|]. split; [|split; [fold dx dy; apply Z.le_refl|lia]].
                unfold allowed. pose proof (range_bounds i) as RB. unfold the_range in *. rewrite Hs in *. rewrite X0 in *.
                assert (Y0 : mask_bound (i / gw g =? gh g - 1) (i + gw g) i (f_r k) = f_r k).
                { unfold mask_bound. rewrite (proj2 (Z.eqb_neq _ _)) by lia. replace (i + gw g) with (i + 1 * gw g) by lia.
                  rewrite (proj2 (Z.leb_gt _ _)) by lia. reflexivity. }
                rewrite Y0 in *. fold dx dy. lia.
          -- exists i. split; [assumption|]. split; [lia|]. split; [|split; [fold dx dy; apply Z.le_refl|lia]].
             unfold allowed. pose proof (range_bounds i) as RB. unfold the_range in *. rewrite Hs in *. rewrite X0 in *. fold dx dy. lia.
      + destruct (Z_lt_le_dec 0 dx) as [L2|L2].
        * destruct (Mod 1 ltac:(lia)) as [M1 M2].
          destruct (Z_le_gt_dec (value i) (value (i + 1))) as [V|V].
          -- apply (Step (i + 1)); rewrite ?M1, ?M2; try lia. { apply IX; rewrite ?M1, ?M2; lia. }
             replace (qx - (i mod gw g + 1)) with (dx - 1) by lia. apply T2. lia.
          -- assert (X0 : mask_bound (i mod gw g =? gw g - 1) (i + 1) i (f_r k) = f_r k).
             { unfold mask_bound. rewrite (proj2 (Z.eqb_neq _ _)) by lia.
               rewrite (proj2 (Z.leb_gt _ _)) by lia. reflexivity. }
             destruct (Z_lt_le_dec dy 0) as [Ly|Ly]; [|destruct (Z_lt_le_dec 0 dy) as [Ly2|Ly2]].
             ++ destruct (Row (-1)) as [R1 R2].
                destruct (Z_le_gt_dec (value i) (value (i + -1 * gw g))) as [Vy|Vy].
                ** apply (Step (i + -1 * gw g)); rewrite ?R1, ?R2; try lia. { apply IX; rewrite ?R1, ?R2; lia. }
                   replace (qy - (i / gw g + -1)) with (dy + 1) by lia. apply T3. lia.
                ** exists i. split; [assumption|]. split; [lia|]. split; [|split; [fold dx dy; apply Z.le_refl|lia]].
                   unfold allowed. pose proof (range_bounds i) as RB. unfold the_range in *. rewrite Hs in *. rewrite X0 in *.
                   assert (Y0 : mask_bound (i / gw g =? 0) (i - gw g) i (- f_r k) = - f_r k).
                   { unfold mask_bound. rewrite (proj2 (Z.eqb_neq _ _)) by lia. replace (i - gw g) with (i + -1 * gw g) by lia.
                     rewrite (proj2 (Z.leb_gt _ _)) by lia. reflexivity. }
                   rewrite Y0 in *. fold dx dy. lia.
             ++ destruct (Row 1) as [R1 R2].
                destruct (Z_le_gt_dec (value i) (value (i + 1 * gw g))) as [Vy|Vy].
                ** apply (Step (i + 1 * gw g)); rewrite ?R1, ?R2; try lia. { apply IX; rewrite ?R1, ?R2; lia. }
                   replace (qy - (i / gw g + 1)) with (dy - 1) by lia. apply T4. lia.
                ** exists i. split; [assumption|]. split; [lia|]. split; [|split; [fold dx dy; apply Z.le_refl|lia]].
                   unfold allowed. pose proof (range_bounds i) as RB. unfold the_range in *. rewrite Hs in *. rewrite X0 in *.
                   assert (Y0 : mask_bound (i / gw g =? gh g - 1) (i + gw g) i (f_r k) = f_r k).
                   { unfold mask_bound. rewrite (proj2 (Z.eqb_neq _ _)) by lia. replace (i + gw g) with (i + 1 * gw g) by lia.
                     rewrite (proj2 (Z.leb_gt _ _)) by lia. reflexivity. }
                   rewrite Y0 in *. fold dx dy. lia.
             ++ exists i. split; [assumption|]. split; [lia|]. split; [|split; [fold dx dy; apply Z.le_refl|lia]].
                unfold allowed. pose proof (range_bounds i) as RB. unfold the_range in *. rewrite Hs in *. rewrite X0 in *. fold dx dy. lia.
        * destruct (Z_lt_le_dec dy 0) as [Ly|Ly]; [|destruct (Z_lt_le_dec 0 dy) as [Ly2|Ly2]].
          -- destruct (Row (-1)) as [R1 R2].
             destruct (Z_le_gt_dec (value i) (value (i + -1 * gw g))) as [Vy|Vy].
             ++ apply (Step (i + -1 * gw g)); rewrite ?R1, ?R2; try lia. { apply IX; rewrite ?R1, ?R2; lia. }
                replace (qy - (i / gw g + -1)) with (dy + 1) by lia. apply T3. lia.
             ++ exists i. split; [assumption|]. split; [lia|]. split; [|split; [fold dx dy; apply Z.le_refl|lia]].
                unfold allowed. pose proof (range_bounds i) as RB. unfold the_range in *. rewrite Hs in *.
                assert (Y0 : mask_bound (i / gw g =? 0) (i - gw g) i (- f_r k) = - f_r k).
                { unfold mask_bound. rewrite (proj2 (Z.eqb_neq _ _)) by lia. replace (i - gw g) with (i + -1 * gw g) by lia.
                  rewrite (proj2 (Z.leb_gt _ _)) by lia. reflexivity. }
                rewrite Y0 in *. fold dx dy. lia.
          -- destruct (Row 1) as [R1 R2].
             destruct (Z_le_gt_dec (value i) (value (i + 1 * gw g))) as [Vy|Vy].
             ++ apply (Step (i + 1 * gw g)); rewrite ?R1, ?R2; try lia. { apply IX; rewrite ?R1, ?R2; lia. }
                replace (qy - (i / gw g + 1)) with (dy - 1) by lia. apply T4. lia.
             ++ exists i. split; [assumption|]. split; [lia|]. split; [|split; [fold dx dy; apply Z.le_refl|lia]].
                unfold allowed. pose proof (range_bounds i) as RB. unfold the_range in *. rewrite Hs in *.
                assert (Y0 : mask_bound (i / gw g =? gh g - 1) (i + gw g) i (f_r k) = f_r k).
                { unfold mask_bound. rewrite (proj2 (Z.eqb_neq _ _)) by lia. replace (i + gw g) with (i + 1 * gw g) by lia.
                  rewrite (proj2 (Z.leb_gt _ _)) by lia. reflexivity. }
                rewrite Y0 in *. fold dx dy. lia.
          -- exists i. split; [assumption|]. split; [lia|]. split; [|split; [fold dx dy; apply Z.le_refl|lia]].
             unfold allowed. pose proof (range_bounds i) as RB. unfold the_range in *. rewrite Hs in *. fold dx dy. lia.
  Qed.
End Draw.
