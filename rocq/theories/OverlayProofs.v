From Coq Require Import ZifyBool.
From Verif Require Import Common DistMap DistMapProofs Overlay OverlaySpec.
Local Open Scope Z_scope.

Lemma foldM_prefix {A S} (f : S -> A -> outcome S) (P : list A -> S -> Prop) l s0 : P [] s0 ->
  (forall pre a post s, l = pre ++ a :: post -> P pre s -> exists s', f s a = Ok s' /\ P (pre ++ [a]) s') ->
  exists s', foldM f l s0 = Ok s' /\ P l s'.
Proof.
  intros H0 H. enough (G : forall post pre s, l = pre ++ post -> P pre s -> exists s', foldM f post s = Ok s' /\ P l s').
  { apply (G l []); auto. }
  induction post as [|a post IH]; intros pre s E Hs.
  - exists s. rewrite app_nil_r in E. subst. simpl. auto.
  - destruct (H pre a post s E Hs) as (s1 & E1 & H1). simpl. rewrite E1. simpl.
    apply (IH (pre ++ [a])); [rewrite <- app_assoc; exact E|exact H1].
Qed.

Lemma upd3_same {A} (f : cell3 -> A) c a : upd3 f c a c = a.
Proof. unfold upd3. destruct (cell3_dec c c); congruence. Qed.
Lemma upd3_other {A} (f : cell3 -> A) c a x : x <> c -> upd3 f c a x = f x.
Proof. intros H. unfold upd3. destruct (cell3_dec x c); congruence. Qed.

(** Writing each cell of a list from a fixed source. *)
Lemma fill3 (ok : cell3 -> bool) (src : cell3 -> Z) l f0 : (forall c, In c l -> ok c = true) ->
  exists f, foldM (fun f c => do _ <- guard (ok c); Ok (upd3 f c (src c))) l f0 = Ok f /\
    (forall c, In c l -> f c = src c) /\ (forall c, ~ In c l -> f c = f0 c).
Proof.
  intros H. apply (foldM_prefix _ (fun pre f => (forall c, In c pre -> f c = src c) /\ (forall c, ~ In c pre -> f c = f0 c))).
  - split; [intros c []|auto].
  - intros pre a post f E [P1 P2]. rewrite (H a) by (subst l; apply in_or_app; right; left; reflexivity). simpl.
    eexists. split; [reflexivity|]. split; intros c Hc.
    + destruct (cell3_dec c a) as [->|N]; [apply upd3_same|]. rewrite upd3_other by exact N. apply P1.
      apply in_app_or in Hc as [Hc|[Hc|[]]]; [exact Hc|congruence].
    + rewrite upd3_other; [apply P2; intros X; apply Hc, in_or_app; auto|]. intros ->. apply Hc, in_or_app. right. left. reflexivity.
Qed.
Lemma fill2 (ok : cell -> bool) (src : cell -> Z) l f0 : (forall c, In c l -> ok c = true) ->
  exists f, foldM (fun f c => do _ <- guard (ok c); Ok (upd f c (src c))) l f0 = Ok f /\
    (forall c, In c l -> f c = src c) /\ (forall c, ~ In c l -> f c = f0 c).
Proof.
  intros H. apply (foldM_prefix _ (fun pre f => (forall c, In c pre -> f c = src c) /\ (forall c, ~ In c pre -> f c = f0 c))).
  - split; [intros c []|auto].
  - intros pre a post f E [P1 P2]. rewrite (H a) by (subst l; apply in_or_app; right; left; reflexivity). simpl.
    eexists. split; [reflexivity|]. split; intros c Hc.
    + destruct (cell_dec c a) as [->|N]; [apply upd_same|]. rewrite upd_other by exact N. apply P1.
      apply in_app_or in Hc as [Hc|[Hc|[]]]; [exact Hc|congruence].
    + rewrite upd_other; [apply P2; intros X; apply Hc, in_or_app; auto|]. intros ->. apply Hc, in_or_app. right. left. reflexivity.
Qed.

Lemma NoDup_list_prod {A B} (l : list A) (k : list B) : NoDup l -> NoDup k -> NoDup (list_prod l k).
Proof.
  intros Hl Hk. induction Hl as [|a l Ha Hl IH]; simpl; [constructor|].
  assert (G : NoDup (map (fun y => (a, y)) k)).
  { apply FinFun.Injective_map_NoDup; [|exact Hk]. intros x y E. congruence. }
  revert G. generalize (fun b H => proj1 (in_map_iff (fun y => (a, y)) k b) H). intros M G.
  induction G as [|p q Hp Hq IHq]; simpl; [exact IH|]. constructor.
  - intros X. apply in_app_or in X as [X|X]; [auto|]. destruct (M p (or_introl eq_refl)) as (y & <- & _).
    apply in_prod_iff in X as [X _]. auto.
  - apply IHq. intros b Hb. apply M. right. exact Hb.
Qed.
Lemma columns_NoDup w h : NoDup (columns w h).
Proof. apply NoDup_list_prod; apply range_incl_NoDup. Qed.
Lemma in_columns w h p : In p (columns w h) <-> 0 <= fst p < w /\ 0 <= snd p < h.
Proof. destruct p as [x y]. unfold columns. etransitivity; [apply in_prod_iff|]. rewrite !in_range_excl. simpl. tauto. Qed.

Lemma i32_small z : - 2 ^ 31 <= z < 2 ^ 31 -> i32 z = z.
Proof. intros H. unfold i32. rewrite Z.mod_small; lia. Qed.
Lemma u32_small z : 0 <= z < 2 ^ 32 -> u32 z = z.
Proof. intros H. unfold u32. apply Z.mod_small. lia. Qed.

Lemma at_nth d a : 0 <= a < Z.of_nat (length d) -> at_ d a = Ok (nth (Z.to_nat a) d 0).
Proof.
  intros H. unfold at_. destruct (Z.ltb_spec a 0); [lia|]. rewrite (nth_error_nth' d 0) by lia. reflexivity.
Qed.

Lemma index_bounds x y t w h a : 0 <= x < w -> 0 <= y < h -> 0 <= t < a -> 0 <= (t * h + y) * w + x < w * h * a.
Proof.
  intros Hx Hy Ht. assert (t * h + y + 1 <= a * h) by nia. assert (0 <= t * h) by nia. split; [nia|]. nia.
Qed.
Lemma index_parts x y t w h a n : 0 <= x < w -> 0 <= y < h -> 0 <= t < a -> w * h * a <= n ->
  0 <= t * h <= n /\ 0 <= t * h + y <= n /\ 0 <= (t * h + y) * w <= n.
Proof.
  intros Hx Hy Ht Hn. pose proof (index_bounds x y t w h a Hx Hy Ht).
  assert (0 <= t * h) by nia. assert (t * h + y + 1 <= a * h) by nia. assert (a * h <= w * h * a) by nia. nia.
Qed.

Lemma m_at_nth m p t : good_map m -> 0 <= fst p < m_w m -> 0 <= snd p < m_h m -> 0 <= t < m_a m ->
  m_at m p t = Ok (nth (Z.to_nat ((t * m_h m + snd p) * m_w m + fst p)) (m_data m) 0).
Proof.
  intros (H1 & H2 & H3 & H4 & H5 & H6 & H7 & H8) Hx Hy Ht. unfold m_at. apply at_nth. rewrite H8. apply index_bounds; assumption.
Qed.

Lemma u_at_nth u p t : good_update u -> u_w u * u_h u * u_a u < 2 ^ 31 -> 0 <= fst p < u_w u -> 0 <= snd p < u_h u -> 0 <= t < u_a u ->
  u_at u p t = Ok (nth (Z.to_nat ((t * u_h u + snd p) * u_w u + fst p)) (u_data u) 0).
Proof.
  intros (_ & _ & _ & _ & _ & _ & _ & _ & L) B Hx Hy Ht. unfold u_at.
  pose proof (index_parts _ _ _ _ _ _ (2 ^ 31) Hx Hy Ht ltac:(lia)). pose proof (index_bounds _ _ _ _ _ _ Hx Hy Ht).
  rewrite (u32_small (t * u_h u)) by lia. rewrite (u32_small (t * u_h u + snd p)) by lia.
  rewrite (u32_small ((t * u_h u + snd p) * u_w u)) by lia. rewrite u32_small by lia.
  apply at_nth. rewrite L. assumption.
Qed.

(** *** Loading a map *)
Lemma lowest_snoc f n : 0 <= n -> lowest f (n + 1) = Z.min (lowest f n) (f n).
Proof.
  intros H. unfold lowest, range_excl, range_incl. replace (n + 1 - 1 - 0 + 1) with (n + 1) by lia. replace (n - 1 - 0 + 1) with n by lia.
  replace (Z.to_nat (n + 1)) with (Z.to_nat n + 1)%nat by lia. rewrite seq_app, !map_app, fold_left_app. simpl.
  replace (Z.of_nat (Z.to_nat n)) with n by lia. destruct n; reflexivity.
Qed.
Lemma lowest_0 f : lowest f 0 = 100.
Proof. reflexivity. Qed.
Lemma range_excl_prefix n pre t post : 0 <= n -> range_excl 0 n = pre ++ t :: post -> t = Z.of_nat (length pre) /\ 0 <= t < n /\ (forall k, In k pre <-> 0 <= k < t).
Proof.
  intros Hn E. unfold range_excl, range_incl in E.
  set (N := Z.to_nat (n - 1 - 0 + 1)) in *.
  assert (L : (length pre < N)%nat).
  { apply (f_equal (@length Z)) in E. rewrite map_length, seq_length, app_length in E. simpl in E. lia. }
  assert (Hk : forall i, (i < N)%nat -> nth i (pre ++ t :: post) 0 = Z.of_nat i).
  { intros i Hi. rewrite <- E. rewrite (nth_indep _ 0 ((fun k => 0 + Z.of_nat k) 0%nat)) by (rewrite map_length, seq_length; exact Hi).
    rewrite (map_nth (fun k => 0 + Z.of_nat k)). rewrite seq_nth by exact Hi. lia. }
  assert (Ht : t = Z.of_nat (length pre)).
  { rewrite <- (Hk _ L). rewrite app_nth2 by lia. rewrite Nat.sub_diag. reflexivity. }
  split; [exact Ht|]. split; [lia|]. intros k. split.
  - intros Hin. apply (In_nth _ _ 0) in Hin as (i & Hi & <-). specialize (Hk i ltac:(lia)). rewrite app_nth1 in Hk by exact Hi. lia.
  - intros Hk'. specialize (Hk (Z.to_nat k) ltac:(lia)). rewrite app_nth1 in Hk by lia. replace k with (nth (Z.to_nat k) pre 0) by lia.
    apply nth_In. lia.
Qed.
Lemma range_excl_length n : 0 <= n -> Z.of_nat (length (range_excl 0 n)) = n.
Proof. intros H. unfold range_excl, range_incl. rewrite map_length, seq_length. lia. Qed.

Section P.
  Variable unknown : Z.
  Variable overwrite : bool.

  Lemma copy_column_spec m s p : good_map m -> 0 <= fst p < m_w m -> 0 <= snd p < m_h m ->
    exists s', copy_column unknown m s p = Ok s' /\
      (forall c, fst c = p -> 0 <= snd c < m_a m -> fst s' c = map_cost unknown m c) /\
      (forall c, fst c <> p -> fst s' c = fst s c) /\
      snd s' p = lowest (fun t => map_cost unknown m (p, t)) (m_a m) /\
      (forall q, q <> p -> snd s' q = snd s q).
  Proof.
    intros G Hx Hy. unfold copy_column. assert (Ga : 0 <= m_a m) by apply G.
    match goal with |- context [foldM ?f (range_excl 0 (m_a m)) _] => destruct (foldM_prefix f
      (fun pre s1 => (forall c, fst c = p -> 0 <= snd c < Z.of_nat (length pre) -> fst s1 c = map_cost unknown m c) /\
         (forall c, fst c <> p -> fst s1 c = fst s c) /\ snd s1 = lowest (fun t => map_cost unknown m (p, t)) (Z.of_nat (length pre)))
      (range_excl 0 (m_a m)) (fst s, 100)) as ([cm acc] & E & P1 & P2 & P3) end.
    - split; [simpl; intros; lia|]. split; [auto|reflexivity].
    - intros pre t post [cm acc] E (P1 & P2 & P3). destruct (range_excl_prefix _ _ _ _ Ga E) as (Et & Ht & _).
      rewrite (m_at_nth m p t G Hx Hy Ht). cbn [bind]. eexists. split; [reflexivity|].
      assert (Ec : static_cost unknown (nth (Z.to_nat ((t * m_h m + snd p) * m_w m + fst p)) (m_data m) 0) = map_cost unknown m (p, t)) by reflexivity.
      rewrite Ec. cbn [fst snd] in *. rewrite app_length, Nat2Z.inj_add. cbn [length Z.of_nat]. split; [|split].
      + intros c Hc Hs. destruct (cell3_dec c (p, t)) as [->|N]; [apply upd3_same|]. rewrite upd3_other by exact N. apply P1; [exact Hc|].
        assert (snd c <> t) by (intros X; apply N; rewrite <- Hc, <- X; destruct c; reflexivity). simpl in Hs. lia.
      + intros c Hc. rewrite upd3_other by (intros ->; apply Hc; reflexivity). apply P2. exact Hc.
      + replace (Z.of_nat (length pre) + Z.pos (Pos.of_succ_nat 0)) with (Z.of_nat (length pre) + 1) by reflexivity.
        rewrite lowest_snoc by lia. rewrite P3, Et. destruct (Z.ltb_spec (map_cost unknown m (p, Z.of_nat (length pre))) (lowest (fun t0 => map_cost unknown m (p, t0)) (Z.of_nat (length pre)))); lia.
    - rewrite E. cbn [bind fst snd] in *. eexists. split; [reflexivity|]. cbn [fst snd]. rewrite range_excl_length in P1, P3 by exact Ga.
      split; [exact P1|]. split; [exact P2|]. split; [rewrite upd_same; exact P3|]. intros q Hq. apply upd_other. exact Hq.
  Qed.

  Lemma load_map_spec k m : good_map m ->
    exists o, load_map unknown k m = Ok o /\ o_w o = m_w m /\ o_h o = m_h m /\ o_a o = m_a m /\ o_cm o = o_base o /\ o_rough o = o_rbase o /\
      (forall c, o_upd o c = 0) /\ o_min o = (m_w m, m_h m) /\ o_max o = (0, 0) /\ o_kept o = k /\
      (forall c, in3 o c = true -> o_base o c = map_cost unknown m c) /\
      (forall c, in2 o c = true -> o_rbase o c = lowest (fun t => map_cost unknown m (c, t)) (m_a m)).
  Proof.
    intros G. unfold load_map.
    destruct (foldM_prefix (copy_column unknown m)
      (fun pre s => (forall c, In (fst c) pre -> 0 <= snd c < m_a m -> fst s c = map_cost unknown m c) /\
        (forall q, In q pre -> snd s q = lowest (fun t => map_cost unknown m (q, t)) (m_a m)))
      (columns (m_w m) (m_h m)) ((fun _ => 0), (fun _ => 0))) as ([cm ro] & E & P1 & P2).
    - split; intros ? [].
    - intros pre p post s E (P1 & P2).
      assert (Hp : In p (columns (m_w m) (m_h m))) by (rewrite E; apply in_or_app; right; left; reflexivity).
      apply in_columns in Hp as [Hx Hy]. destruct (copy_column_spec m s p G Hx Hy) as (s' & E' & Q1 & Q2 & Q3 & Q4).
      exists s'. split; [exact E'|]. split.
      + intros c Hc Ht. destruct (cell_dec (fst c) p) as [Ep|Np]; [apply Q1; assumption|]. rewrite (Q2 c Np). apply P1; [|exact Ht].
        apply in_app_or in Hc as [Hc|[Hc|[]]]; [exact Hc|congruence].
      + intros q Hq. destruct (cell_dec q p) as [->|Nq]; [exact Q3|]. rewrite (Q4 q Nq). apply P2.
        apply in_app_or in Hq as [Hq|[Hq|[]]]; [exact Hq|congruence].
    - rewrite E. cbn [bind]. eexists. split; [reflexivity|]. cbn [o_w o_h o_a o_cm o_base o_rough o_rbase o_upd o_min o_max o_kept fst snd].
      repeat (split; [reflexivity|]). split.
      + intros c Hc. unfold in3, in2 in Hc. cbn [o_w o_h o_a] in Hc. apply P1; [apply in_columns|]; lia.
      + intros c Hc. unfold in2 in Hc. cbn [o_w o_h o_a] in Hc. apply P2. apply in_columns. lia.
  Qed.

  (** *** Laying one update over the static map *)
  (** Everything outside the remembered area shows the static map. *)
  Definition in_area (o : ov) (c : cell) : Prop :=
    fst (o_min o) <= fst c <= fst (o_max o) /\ snd (o_min o) <= snd c <= snd (o_max o).
  Definition clean_outside (o : ov) : Prop :=
    (forall c, in3 o c = true -> ~ in_area o (fst c) -> o_cm o c = o_base o c) /\
    (forall c, in2 o c = true -> ~ in_area o c -> o_rough o c = o_rbase o c /\ (o_upd o c = 0 \/ o_upd o c = -1)) /\
    (forall c, in_area o c -> in2 o c = true).

  Lemma restore_spec o : clean_outside o ->
    exists o', restore o = Ok o' /\ o_w o' = o_w o /\ o_h o' = o_h o /\ o_a o' = o_a o /\ o_base o' = o_base o /\ o_rbase o' = o_rbase o /\
      o_kept o' = o_kept o /\
      (forall c, in3 o c = true -> o_cm o' c = o_base o c) /\
      (forall c, in2 o c = true -> o_rough o' c = o_rbase o c /\ (o_upd o' c = 0 \/ o_upd o' c = -1)).
  Proof.
    intros (C1 & C2 & C3). unfold restore.
    set (area := list_prod (range_incl (fst (o_min o)) (fst (o_max o))) (range_incl (snd (o_min o)) (snd (o_max o)))).
    assert (A : forall c, In c area <-> in_area o c).
    { intros [x y]. unfold area, in_area. etransitivity; [apply in_prod_iff|]. rewrite !in_range_incl. simpl. tauto. }
    destruct (fill3 (in3 o) (o_base o) (list_prod area (range_incl 0 (o_a o - 1))) (o_cm o)) as (f & -> & F1 & F2).
    { intros [c t] Hc. apply in_prod_iff in Hc as [Hc Ht]. apply in_range_incl in Ht. apply A, C3 in Hc. unfold in3. simpl. rewrite Hc. lia. }
    cbn [bind].
    destruct (fill2 (in2 o) (o_rbase o) area (o_rough o)) as (g & -> & G1 & G2).
    { intros c Hc. apply C3, A, Hc. }
    cbn [bind].
    destruct (fill2 (in2 o) (fun _ => -1) area (o_upd o)) as (h & E & H1 & H2).
    { intros c Hc. apply C3, A, Hc. }
    cbv beta in E. rewrite E. cbn [bind].
    eexists. split; [reflexivity|]. cbn [o_w o_h o_a o_cm o_base o_rough o_rbase o_upd o_min o_max o_kept].
    repeat (split; [reflexivity|]).
    assert (D : forall c, In c area \/ ~ In c area).
    { intros c. destruct (in_dec cell_dec c area); auto. }
    split.
    - intros [c t] Hc. destruct (D c) as [Y|N].
      + apply F1. apply in_prod_iff. split; [exact Y|]. apply in_range_incl. unfold in3 in Hc. simpl in Hc. lia.
      + rewrite F2 by (intros X; apply in_prod_iff in X as [X _]; auto). apply C1; [exact Hc|]. simpl. rewrite <- A. exact N.
    - intros c Hc. destruct (D c) as [Y|N].
      + rewrite G1, H1 by exact Y. auto.
      + rewrite G2, H2 by exact N. apply C2; [exact Hc|]. rewrite <- A. exact N.
  Qed.

  (** One column of a fitting update. *)
  Section Column.
    Variable u : umsg.
    Variables W H A : Z.
    Hypothesis Gu : good_update u.
    Hypothesis Fx : u_x u + u_w u <= W.
    Hypothesis Fy : u_y u + u_h u <= H.
    Hypothesis Ft : u_yaw u + u_a u <= A.
    Hypothesis Small : u_w u * u_h u * u_a u < 2 ^ 31.
    Let D (p : cell) (t : Z) : Z := nth (Z.to_nat ((t * u_h u + snd p) * u_w u + fst p)) (u_data u) 0.
    Let g (p : cell) : cell := (u_x u + fst p, u_y u + snd p).

    Lemma place p : 0 <= fst p < u_w u -> 0 <= snd p < u_h u -> cadd (i32 (u_x u), i32 (u_y u)) p = g p.
    Proof. intros Hx Hy. destruct Gu as (G1 & G2 & G3 & G4 & G5 & G6 & G7 & G8 & _). unfold cadd, g. cbn [fst snd]. rewrite !i32_small by lia. reflexivity. Qed.

    Lemma column_min_spec o p : o_w o = W -> o_h o = H -> o_a o = A -> 0 <= fst p < u_w u -> 0 <= snd p < u_h u ->
      column_min o u p = Ok (lowest (D p) (u_a u)).
    Proof.
      intros EW EH EA Hx Hy. unfold column_min. rewrite place by assumption.
      destruct Gu as (G1 & G2 & G3 & G4 & G5 & G6 & G7 & G8 & _). rewrite (i32_small (u_a u)), (i32_small (u_yaw u)) by lia.
      destruct (foldM_prefix (fun acc t => do c <- u_at u p t; do _ <- guard (negb (c =? 100) || in3 o (g p, u_yaw u + t)); Ok (if c <? acc then c else acc))
        (fun pre acc => acc = lowest (D p) (Z.of_nat (length pre))) (range_excl 0 (u_a u)) 100) as (r & E & P).
      - reflexivity.
      - intros pre t post acc E ->. destruct (range_excl_prefix _ _ _ _ (proj1 G6) E) as (Et & Ht & _).
        rewrite (u_at_nth u p t Gu Small Hx Hy Ht). cbn [bind]. fold (D p t).
        assert (I : in3 o (g p, u_yaw u + t) = true) by (unfold in3, in2, g; cbn [fst snd]; lia).
        rewrite I, orb_true_r. cbn [guard bind]. eexists. split; [reflexivity|].
        rewrite app_length, Nat2Z.inj_add. replace (Z.of_nat (length [t])) with 1 by reflexivity. rewrite lowest_snoc by lia. rewrite <- Et.
        destruct (Z.ltb_spec (D p t) (lowest (D p) t)); lia.
      - rewrite E, P, range_excl_length by lia. reflexivity.
    Qed.

    Lemma column_spec o p : o_w o = W -> o_h o = H -> o_a o = A -> 0 <= fst p < u_w u -> 0 <= snd p < u_h u ->
      exists o', column overwrite u o p = Ok o' /\ o_w o' = o_w o /\ o_h o' = o_h o /\ o_a o' = o_a o /\ o_base o' = o_base o /\
        o_rbase o' = o_rbase o /\ o_kept o' = o_kept o /\ o_min o' = o_min o /\ o_max o' = o_max o /\
        (forall t, 0 <= t < u_a u -> o_cm o' (g p, u_yaw u + t) = laid_over overwrite (o_cm o (g p, u_yaw u + t)) (Some (D p t))) /\
        (forall c, ~ (fst c = g p /\ u_yaw u <= snd c < u_yaw u + u_a u) -> o_cm o' c = o_cm o c) /\
        o_rough o' (g p) = Z.max (o_rough o (g p)) (lowest (D p) (u_a u)) /\ (forall c, c <> g p -> o_rough o' c = o_rough o c) /\
        o_upd o' (g p) = lowest (D p) (u_a u) /\ (forall c, c <> g p -> o_upd o' c = o_upd o c).
    Proof.
      intros EW EH EA Hx Hy. unfold column. rewrite (column_min_spec o p EW EH EA Hx Hy). cbn [bind]. rewrite place by assumption.
      destruct Gu as (G1 & G2 & G3 & G4 & G5 & G6 & G7 & G8 & _). rewrite (i32_small (u_a u)), (i32_small (u_yaw u)) by lia.
      assert (I2 : in2 o (g p) = true) by (unfold in2, g; cbn [fst snd]; lia). rewrite I2. cbn [guard bind].
      match goal with |- context [foldM ?f (range_excl 0 (u_a u)) (o_cm o)] =>
        destruct (foldM_prefix f
          (fun pre cm => (forall t, 0 <= t < Z.of_nat (length pre) -> cm (g p, u_yaw u + t) = laid_over overwrite (o_cm o (g p, u_yaw u + t)) (Some (D p t))) /\
            (forall c, ~ (fst c = g p /\ u_yaw u <= snd c < u_yaw u + Z.of_nat (length pre)) -> cm c = o_cm o c))
          (range_excl 0 (u_a u)) (o_cm o)) as (cm & E & P1 & P2) end.
      - split; [simpl; intros; lia|auto].
      - intros pre t post cm E (P1 & P2). destruct (range_excl_prefix _ _ _ _ (proj1 G6) E) as (Et & Ht & _).
        rewrite (u_at_nth u p t Gu Small Hx Hy Ht). cbn [bind]. fold (D p t).
        assert (I : in3 o (g p, u_yaw u + t) = true) by (unfold in3; cbn [fst snd]; rewrite I2; lia).
        rewrite I. cbn [guard bind]. eexists. split; [reflexivity|].
        rewrite app_length, Nat2Z.inj_add. replace (Z.of_nat (length [t])) with 1 by reflexivity.
        assert (E0 : cm (g p, u_yaw u + t) = o_cm o (g p, u_yaw u + t)) by (apply P2; cbn [fst snd]; lia).
        set (cm' := if overwrite then _ else _).
        assert (S1 : cm' (g p, u_yaw u + t) = laid_over overwrite (o_cm o (g p, u_yaw u + t)) (Some (D p t))).
        { unfold cm', laid_over. destruct overwrite.
          - destruct (0 <=? D p t); [apply upd3_same|exact E0].
          - destruct (Z.ltb_spec (cm (g p, u_yaw u + t)) (D p t)); [rewrite upd3_same; lia|lia]. }
        assert (S2 : forall c, c <> (g p, u_yaw u + t) -> cm' c = cm c).
        { intros c N. unfold cm'. destruct overwrite; [destruct (0 <=? D p t)|destruct (cm (g p, u_yaw u + t) <? D p t)]; try reflexivity; apply upd3_other; exact N. }
        split.
        + intros k Hk. destruct (Z.eq_dec k t) as [->|N]; [exact S1|]. rewrite S2 by (intros X; apply N; injection X; lia). apply P1. lia.
        + intros c Hc. rewrite S2. { apply P2. intros [X Y]. apply Hc. split; [exact X|lia]. }
          intros ->. apply Hc. cbn [fst snd]. split; [reflexivity|lia].
      - rewrite E. cbn [bind]. rewrite range_excl_length in P1, P2 by lia. eexists. split; [reflexivity|].
        cbn [o_w o_h o_a o_cm o_base o_rough o_rbase o_upd o_min o_max o_kept]. repeat (split; [reflexivity|]).
        split; [exact P1|]. split; [exact P2|]. split; [|split; [|split]].
        + destruct (Z.ltb_spec (o_rough o (g p)) (lowest (D p) (u_a u))); [rewrite upd_same; lia|lia].
        + intros c Hc. destruct (o_rough o (g p) <? lowest (D p) (u_a u)); [apply upd_other; exact Hc|reflexivity].
        + apply upd_same.
        + intros c Hc. apply upd_other. exact Hc.
    Qed.

    Lemma columns_spec o : o_w o = W -> o_h o = H -> o_a o = A ->
      exists o', foldM (column overwrite u) (columns (u_w u) (u_h u)) o = Ok o' /\ o_w o' = o_w o /\ o_h o' = o_h o /\ o_a o' = o_a o /\
        o_base o' = o_base o /\ o_rbase o' = o_rbase o /\ o_kept o' = o_kept o /\ o_min o' = o_min o /\ o_max o' = o_max o /\
        (forall p t, In p (columns (u_w u) (u_h u)) -> 0 <= t < u_a u ->
           o_cm o' (g p, u_yaw u + t) = laid_over overwrite (o_cm o (g p, u_yaw u + t)) (Some (D p t))) /\
        (forall c, ~ (exists p, In p (columns (u_w u) (u_h u)) /\ fst c = g p /\ u_yaw u <= snd c < u_yaw u + u_a u) -> o_cm o' c = o_cm o c) /\
        (forall p, In p (columns (u_w u) (u_h u)) -> o_rough o' (g p) = Z.max (o_rough o (g p)) (lowest (D p) (u_a u)) /\ o_upd o' (g p) = lowest (D p) (u_a u)) /\
        (forall c, ~ (exists p, In p (columns (u_w u) (u_h u)) /\ c = g p) -> o_rough o' c = o_rough o c /\ o_upd o' c = o_upd o c).
    Proof.
      intros EW EH EA.
      pose (I := fun (pre : list cell) (o' : ov) => o_w o' = o_w o /\ o_h o' = o_h o /\ o_a o' = o_a o /\
        o_base o' = o_base o /\ o_rbase o' = o_rbase o /\ o_kept o' = o_kept o /\ o_min o' = o_min o /\ o_max o' = o_max o /\
        (forall p t, In p pre -> 0 <= t < u_a u ->
           o_cm o' (g p, u_yaw u + t) = laid_over overwrite (o_cm o (g p, u_yaw u + t)) (Some (D p t))) /\
        (forall c, ~ (exists p, In p pre /\ fst c = g p /\ u_yaw u <= snd c < u_yaw u + u_a u) -> o_cm o' c = o_cm o c) /\
        (forall p, In p pre -> o_rough o' (g p) = Z.max (o_rough o (g p)) (lowest (D p) (u_a u)) /\ o_upd o' (g p) = lowest (D p) (u_a u)) /\
        (forall c, ~ (exists p, In p pre /\ c = g p) -> o_rough o' c = o_rough o c /\ o_upd o' c = o_upd o c)).
      apply (foldM_prefix _ I).
      - unfold I. repeat (split; [reflexivity|]). split; [intros p t []|]. split; [auto|]. split; [intros p []|auto].
      - intros pre p post o1 E (I1 & I2 & I3 & I4 & I5 & I6 & I7 & I8 & I9 & I10 & I11 & I12).
        assert (Hp : In p (columns (u_w u) (u_h u))) by (rewrite E; apply in_or_app; right; left; reflexivity).
        pose proof (columns_NoDup (u_w u) (u_h u)) as ND. rewrite E in ND. apply NoDup_remove_2 in ND.
        assert (Np : ~ In p pre) by (intros X; apply ND, in_or_app; auto).
        assert (Gi : forall q, g q = g p -> q = p).
        { intros [a b] X. unfold g in X. injection X; intros. destruct p as [c d]. simpl in *. f_equal; lia. }
        apply in_columns in Hp as [Hx Hy].
        destruct (column_spec o1 p) as (o' & E' & J1 & J2 & J3 & J4 & J5 & J6 & J7 & J8 & J9 & J10 & J11 & J12 & J13 & J14); try congruence; try assumption.
        assert (K1 : forall t, o_cm o1 (g p, u_yaw u + t) = o_cm o (g p, u_yaw u + t)).
        { intros t. apply I10. intros (q & Hq & X & _). simpl in X. apply Np. rewrite <- (Gi q (eq_sym X)). exact Hq. }
        assert (K2 : o_rough o1 (g p) = o_rough o (g p)).
        { apply I12. intros (q & Hq & X). apply Np. rewrite <- (Gi q (eq_sym X)). exact Hq. }
        exists o'. split; [exact E'|]. unfold I. split; [congruence|]. split; [congruence|]. split; [congruence|]. split; [congruence|].
        split; [congruence|]. split; [congruence|]. split; [congruence|]. split; [congruence|]. split; [|split; [|split]].
        + intros q t Hq Ht. apply in_app_or in Hq as [Hq|[<-|[]]]; [|rewrite (J9 t Ht), K1; reflexivity].
          rewrite J10; [apply I9; assumption|]. cbn [fst]. intros [X _]. apply Np. rewrite <- (Gi q X). exact Hq.
        + intros c Hc. rewrite J10; [apply I10; intros (q & Hq & X)|intros X]; apply Hc.
          * exists q. split; [apply in_or_app; auto|exact X].
          * exists p. split; [apply in_or_app; right; left; reflexivity|exact X].
        + intros q Hq. apply in_app_or in Hq as [Hq|[<-|[]]]; [|rewrite J11, J13, K2; auto].
          assert (N : g q <> g p) by (intros X; apply Np; rewrite <- (Gi q X); exact Hq).
          rewrite (J12 _ N), (J14 _ N). apply I11. exact Hq.
        + intros c Hc. assert (N : c <> g p) by (intros X; apply Hc; exists p; split; [apply in_or_app; right; left; reflexivity|exact X]).
          rewrite (J12 _ N), (J14 _ N). apply I12. intros (q & Hq & X). apply Hc. exists q. split; [apply in_or_app; auto|exact X].
    Qed.
  End Column.
End P.
