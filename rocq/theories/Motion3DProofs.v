From Coq Require Import QArith Qround Qabs Lqa ZifyBool ZifyNat.
From Verif Require Import Common CyclicVec CyclicVecSpec CyclicVecProofs CostAlg MotionCache Cost3D Motion3DSpec.
Local Open Scope Z_scope.
Ltac Zify.zify_post_hook ::= Z.div_mod_to_equations.

Lemma veq_true a b : veq a b = true <-> a = b.
Proof. unfold veq. destruct (list_eq_dec Z.eq_dec a b); split; congruence. Qed.
Lemma veq_refl a : veq a a = true.
Proof. apply veq_true. reflexivity. Qed.

(** *** Rounding *)
Lemma lround_near q : (Qabs (q - inject_Z (lround q)) <= 1 # 2)%Q.
Proof.
  unfold lround. apply Qabs_Qle_condition. destruct (Qle_bool 0 q) eqn:E.
  - pose proof (Qfloor_le (q + (1 # 2))) as H1. pose proof (Qlt_floor (q + (1 # 2))) as H2.
    rewrite inject_Z_plus in H2. change (inject_Z 1) with 1%Q in H2. split; lra.
  - pose proof (Qfloor_le (- q + (1 # 2))) as H1. pose proof (Qlt_floor (- q + (1 # 2))) as H2.
    rewrite inject_Z_plus in H2. change (inject_Z 1) with 1%Q in H2. rewrite inject_Z_opp. split; lra.
Qed.

Lemma lround_mono p q : (p <= q)%Q -> lround p <= lround q.
Proof.
  intros H. unfold lround.
  destruct (Qle_bool 0 p) eqn:Ep.
  - apply Qle_bool_iff in Ep. assert (E : Qle_bool 0 q = true) by (apply Qle_bool_iff; lra). rewrite E.
    apply Qfloor_resp_le. lra.
  - destruct (Qle_bool 0 q) eqn:Eq.
    + apply Qle_bool_iff in Eq.
      assert (0 <= Qfloor (q + (1 # 2))).
      { change 0 with (Qfloor 0). apply Qfloor_resp_le. lra. }
      assert (~ (0 <= p)%Q) by (intros A; apply Qle_bool_iff in A; congruence).
      assert (0 <= Qfloor (- p + (1 # 2))).
      { change 0 with (Qfloor 0). apply Qfloor_resp_le. lra. }
      lia.
    + assert (Qfloor (- q + (1 # 2)) <= Qfloor (- p + (1 # 2))) by (apply Qfloor_resp_le; lra). lia.
Qed.

Lemma lround_Z z : lround (inject_Z z) = z.
Proof.
  pose proof (lround_near (inject_Z z)) as H. apply Qabs_Qle_condition in H. destruct H as [H1 H2].
  unfold Qle, Qminus, Qplus, Qopp, inject_Z in *. simpl in *. lia.
Qed.

Lemma lround_between z k n : 0 <= k <= Z.pos n ->
  (0 <= lround (inject_Z z * (k # n)) <= z \/ z <= lround (inject_Z z * (k # n)) <= 0).
Proof.
  intros Hk.
  assert (H0 : (0 <= k # n)%Q) by (unfold Qle; simpl; lia).
  assert (H1 : (k # n <= 1)%Q) by (unfold Qle; simpl; lia).
  assert (Ht : (0 * (k # n) <= inject_Z 0)%Q) by (unfold Qle; simpl; lia).
  pose proof (lround_Z 0) as R0. pose proof (lround_Z z) as Rz. change (inject_Z 0) with 0%Q in R0.
  destruct (Z_le_gt_dec 0 z) as [Hz|Hz].
  - assert (Hq : (0 <= inject_Z z)%Q) by (unfold Qle; simpl; lia).
    left. split.
    + rewrite <- R0. apply lround_mono. nra.
    + apply Z.le_trans with (lround (inject_Z z)); [apply lround_mono; nra|lia].
  - assert (Hq : (inject_Z z <= 0)%Q) by (unfold Qle; simpl; lia).
    right. split.
    + apply Z.le_trans with (lround (inject_Z z)); [lia|apply lround_mono; nra].
    + apply Z.le_trans with (lround 0); [apply lround_mono; nra|lia].
Qed.

(** *** Pages *)

Lemma build_loop_motion angle istep d : forall samples step reg motion interp c,
  In c motion -> In c (pg_motion (build_loop angle istep d samples step reg motion interp)).
Proof.
  induction samples as [|p samples IH]; intros step reg motion interp c H; simpl; [exact H|].
  apply IH. destruct (_ && _); [apply in_or_app; left|]; exact H.
Qed.

Lemma build_loop_cells angle istep d : forall samples step reg motion interp,
  (forall c, In c reg -> In c (d :: motion)) ->
  forall p, In p samples ->
    In (to_cell angle p) (d :: pg_motion (build_loop angle istep d samples step reg motion interp)).
Proof.
  induction samples as [|q samples IH]; intros step reg motion interp HR p Hp; [destruct Hp|]. simpl.
  set (pos := to_cell angle q). set (fresh := negb (veq pos d) && negb (existsb (veq pos) reg)).
  destruct Hp as [->|Hp].
  - fold pos. destruct fresh eqn:Ef.
    + right. apply build_loop_motion. apply in_or_app. right. left. reflexivity.
    + unfold fresh in Ef. apply andb_false_iff in Ef. rewrite !negb_false_iff in Ef.
      destruct Ef as [Ef|Ef]; [left; symmetry; apply veq_true; exact Ef|].
      apply existsb_exists in Ef. destruct Ef as (c & Hc & E). apply veq_true in E. subst c.
      destruct (HR _ Hc) as [H|H]; [left; exact H|right]. apply build_loop_motion. exact H.
  - apply IH; [|exact Hp]. intros c Hc. destruct fresh.
    + destruct Hc as [<-|Hc]; [right; apply in_or_app; right; left; reflexivity|].
      destruct (HR c Hc) as [H|H]; [left; exact H|right; apply in_or_app; left; exact H].
    + apply HR. exact Hc.
Qed.

Lemma build_loop_origin angle istep d : forall samples step reg motion interp c,
  In c (pg_motion (build_loop angle istep d samples step reg motion interp)) ->
  In c motion \/ exists p, In p samples /\ c = to_cell angle p /\ c <> d.
Proof.
  induction samples as [|q samples IH]; intros step reg motion interp c H; simpl in H; [left; exact H|].
  apply IH in H. destruct H as [H|(p & H1 & H2)]; [|right; exists p; split; [right; exact H1|exact H2]].
  destruct (_ && _) eqn:Ef; [|left; exact H].
  apply in_app_or in H. destruct H as [H|[<-|[]]]; [left; exact H|right].
  exists q. split; [left; reflexivity|]. split; [reflexivity|].
  apply andb_true_iff in Ef. destruct Ef as [Ef _]. intros E. rewrite E, veq_refl in Ef. discriminate.
Qed.

Lemma build_loop_interp angle istep d : forall samples step reg motion interp p,
  In p (pg_interp (build_loop angle istep d samples step reg motion interp)) -> In p interp \/ In p samples.
Proof.
  induction samples as [|q samples IH]; intros step reg motion interp p H; simpl in H; [left; exact H|].
  apply IH in H. destruct H as [H|H]; [|right; right; exact H].
  destruct (_ =? _); [|left; exact H].
  apply in_app_or in H. destruct H as [H|[<-|[]]]; [left; exact H|right; left; reflexivity].
Qed.

Lemma build_loop_head angle istep d : forall samples step reg motion interp,
  exists t, pg_interp (build_loop angle istep d samples step reg motion interp) = interp ++ t.
Proof.
  induction samples as [|q samples IH]; intros step reg motion interp; simpl; [exists []; rewrite app_nil_r; reflexivity|].
  match goal with |- context [build_loop _ _ _ _ _ ?a ?b ?c] => destruct (IH (step + 1) a b c) as [t ->] end.
  destruct (_ =? _); [rewrite <- app_assoc|]; eauto.
Qed.

(** Every interpolated pose lies in a listed cell (or the end cell [d]). *)
Lemma page_interp_covered angle istep d samples p :
  In p (pg_interp (build_page angle istep d samples)) ->
  exists c, In c (d :: pg_motion (build_page angle istep d samples)) /\ c = to_cell angle p.
Proof.
  intros H. apply build_loop_interp in H. destruct H as [[]|H].
  eexists. split; [|reflexivity]. apply build_loop_cells; [|exact H].
  intros c [<-|[]]. left. reflexivity.
Qed.

Lemma to_cell_in_cell angle p : in_cell angle p (to_cell angle p).
Proof.
  split; [apply lround_near|]. split; [apply lround_near|].
  exists (lround (pt p)). split; [apply lround_near|reflexivity].
Qed.

(** *** Lookup *)
Lemma page_index_mod ps yaw : 0 < ps -> page_index ps yaw = Ok (yaw mod ps).
Proof.
  intros H. unfold page_index, c_rem. destruct (ps =? 0) eqn:E; [lia|]. f_equal.
  pose proof (Z.rem_bound_abs yaw ps ltac:(lia)).
  pose proof (Z.quot_rem yaw ps ltac:(lia)).
  destruct (Z.rem yaw ps <? 0) eqn:E2.
  - apply (Z.mod_unique_pos yaw ps (Z.quot yaw ps - 1)); lia.
  - apply (Z.mod_unique_pos yaw ps (Z.quot yaw ps)); lia.
Qed.

Lemma find_yaw_spec C ps yaw g : 0 < ps -> find_yaw C ps yaw g = Ok (assoc g (C (yaw mod ps))).
Proof. intros H. unfold find_yaw. rewrite page_index_mod by exact H. reflexivity. Qed.

(** *** interpolatePath *)
Lemma subseq_app {A} (l a b : list A) : subseq a b -> subseq a (l ++ b).
Proof. intros H. induction l; simpl; [exact H|constructor; exact IHl]. Qed.

Definition starts_at_origin (C : cache) : Prop := forall yaw d pg, assoc d (C yaw) = Some pg ->
  exists p rest, pg_interp pg = p :: rest /\ px p == 0 /\ py p == 0 /\ pt p == inject_Z yaw.

Definition peq (a b : posef) : Prop := px a == px b /\ py a == py b /\ pt a == pt b.

Lemma segment_total C ps a b : 0 < ps -> exists s, segment C ps a b = Ok s.
Proof.
  intros H. unfold segment. destruct (_ && _); [eauto|]. unfold find_from. rewrite find_yaw_spec by exact H.
  simpl. destruct (assoc _ _); eauto.
Qed.
Lemma interp_total C ps : 0 < ps -> forall rest prev, exists r, interp_loop C ps prev rest = Ok r.
Proof.
  intros H. induction rest as [|q rest IH]; intros prev; simpl; [eauto|].
  destruct (segment_total C ps prev q H) as [s ->]. simpl. destruct (IH q) as [r ->]. simpl. eauto.
Qed.

Lemma interp_ends C ps : forall rest prev r, interp_loop C ps prev rest = Ok r ->
  exists r', r = r' ++ [lift (last (prev :: rest) prev)].
Proof.
  induction rest as [|q rest IH]; intros prev r E; simpl in E.
  - injection E as <-. exists []. reflexivity.
  - destruct (segment C ps prev q) as [s|]; [|discriminate]. simpl in E.
    destruct (interp_loop C ps q rest) as [t|] eqn:Et; [|discriminate]. simpl in E. injection E as <-.
    destruct (IH q t Et) as [r' ->]. exists (s ++ r'). rewrite app_assoc. f_equal. f_equal. f_equal.
    destruct rest as [|w rest]; [reflexivity|]. change (last (prev :: q :: w :: rest) prev) with (last (w :: rest) prev).
    change (last (q :: w :: rest) q) with (last (w :: rest) q). clear. revert w.
    induction rest as [|v rest IH]; intros w; [reflexivity|]. apply (IH v).
Qed.

(** Poses in [result] that match, up to rational equality, the given grid poses. *)
Inductive visits : list vec -> list posef -> Prop :=
| v_nil l : visits [] l
| v_take a q l1 l2 : peq q (lift a) -> visits l1 l2 -> visits (a :: l1) (q :: l2)
| v_skip q l1 l2 : visits l1 l2 -> visits l1 (q :: l2).
Lemma visits_app l a b : visits a b -> visits a (l ++ b).
Proof. intros H. induction l; simpl; [exact H|constructor; exact IHl]. Qed.

Lemma peq_refl a : peq a a.
Proof. repeat split; reflexivity. Qed.

Lemma interp_visits C ps : 0 < ps -> starts_at_origin C ->
  forall rest prev r, Forall (fun v => 0 <= vt v < ps) (prev :: rest) ->
  interp_loop C ps prev rest = Ok r -> visits (prev :: rest) r.
Proof.
  intros Hp HC. induction rest as [|q rest IH]; intros prev r HF E; simpl in E.
  - injection E as <-. constructor; [apply peq_refl|constructor].
  - inversion HF as [|? ? Hprev HF']; subst.
    destruct (segment C ps prev q) as [s|] eqn:Es; [|discriminate]. simpl in E.
    destruct (interp_loop C ps q rest) as [t|] eqn:Et; [|discriminate]. simpl in E. injection E as <-.
    assert (HS : exists q0 s', s = q0 :: s' /\ peq q0 (lift prev)).
    { unfold segment in Es. destruct (_ && _); [injection Es as <-; eexists; eexists; split; [reflexivity|apply peq_refl]|].
      unfold find_from in Es. rewrite find_yaw_spec in Es by exact Hp. simpl in Es.
      destruct (assoc _ _) as [pg|] eqn:Ea; injection Es as <-; [|eexists; eexists; split; [reflexivity|apply peq_refl]].
      destruct (HC _ _ _ Ea) as (p & rest' & E1 & E2 & E3 & E4). rewrite E1. simpl.
      eexists; eexists; split; [reflexivity|]. unfold peq, shift, lift. simpl.
      rewrite Z.mod_small in E4 by exact Hprev. rewrite E2, E3, E4. repeat split; ring. }
    destruct HS as (q0 & s' & -> & Hq). simpl. constructor; [exact Hq|]. apply visits_app. apply IH; assumption.
Qed.

(** *** cost3 *)
Section Cost.
  Context {F : Type} (K : cost_ops F) (L : cost_laws K).
  Variables (cm cm_hyst : costmap) (hysteresis : bool) (thr : Z).
  Variables (C : cache) (page_size range : Z) (min_b max_b : vec) (N : @numeric F).
  Notation cost3 := (cost3 K cm cm_hyst hysteresis thr C page_size range min_b max_b N).

  Lemma read_inside p c : cm_read cm p = Ok c -> 0 <= vx p < cm_w cm /\ 0 <= vy p < cm_h cm /\ 0 <= vt p < cm_a cm /\ c = cm_at cm p.
  Proof. unfold cm_read, cm_inside. destruct (_ && _) eqn:E; [|discriminate]. intros H. injection H as <-. lia. Qed.
  Lemma read_free p c : cm_read cm p = Ok c -> (99 <? c) = false -> free cm p.
  Proof. intros H E. apply read_inside in H. unfold free. lia. Qed.

  Lemma turn_loop_free : forall n dir x y t sum s, (dir = 1 \/ dir = -1) -> 0 <= t < cm_a cm ->
    turn_loop cm thr n dir [x; y; t] sum = Ok (Some s) ->
    forall k, 0 <= k < Z.of_nat n -> free cm [x; y; (t + dir * k) mod cm_a cm].
  Proof.
    induction n as [|n IH]; intros dir x y t sum s Hdir Ht E k Hk; [lia|].
    cbn [turn_loop] in E. destruct (cm_read cm [x; y; t]) as [c|] eqn:Er; [|discriminate]. cbn [bind] in E.
    destruct (99 <? c) eqn:Ec; [discriminate|].
    destruct (Z.eq_dec k 0) as [->|Nk].
    - rewrite Z.mul_0_r, Z.add_0_r, Z.mod_small by exact Ht. eapply read_free; eauto.
    - cbn [vx vy vt nth] in E.
      set (t' := if t + dir <? 0 then t + dir + cm_a cm else if cm_a cm <=? t + dir then t + dir - cm_a cm else t + dir) in E.
      assert (Ht' : t' = (t + dir) mod cm_a cm).
      { unfold t'. destruct (t + dir <? 0) eqn:E1; [|destruct (cm_a cm <=? t + dir) eqn:E2].
        - apply (Z.mod_unique_pos _ _ (-1)); lia.
        - apply (Z.mod_unique_pos _ _ 1); lia.
        - apply (Z.mod_unique_pos _ _ 0); lia. }
      assert (Hb : 0 <= t' < cm_a cm) by (rewrite Ht'; apply Z.mod_pos_bound; lia).
      specialize (IH dir x y t' _ s Hdir Hb E (k - 1) ltac:(lia)).
      replace ((t + dir * k) mod cm_a cm) with ((t' + dir * (k - 1)) mod cm_a cm); [exact IH|].
      rewrite Ht', Zplus_mod_idemp_l. f_equal. ring.
  Qed.

  Lemma motion_loop_free cur : forall m a b c r, motion_loop cm cm_hyst hysteresis thr cur m a b c = Ok (Some r) ->
    forall d, In d m -> free cm [vx cur + vx d; vy cur + vy d; vt d].
  Proof.
    induction m as [|d m IH]; intros a b c r E d0 Hd; [destruct Hd|]. cbn [motion_loop] in E.
    destruct (cm_read cm [vx cur + vx d; vy cur + vy d; vt d]) as [v|] eqn:Er; [|discriminate]. cbn [bind] in E.
    destruct (99 <? v) eqn:Ev; [discriminate|].
    destruct (if hysteresis then _ else _) as [h|]; [|discriminate]. cbn [bind] in E.
    destruct Hd as [<-|Hd]; [eapply read_free; eauto|eapply IH; eauto].
  Qed.

  Lemma cost3_free cur next c : length cur = 3%nat -> length next = 3%nat -> 0 < page_size ->
    cost3 cur next = Ok c -> fltb K c (fzero K) = false ->
    forall p, swept C page_size cm cur next p -> free cm p.
  Proof.
    intros Lc Ln Hps E Hc p Hp.
    assert (Hneg : forall x, Ok (fneg1 K) = Ok x -> fltb K x (fzero K) = false -> False).
    { intros x Hx H. injection Hx as <-. rewrite (lw_neg1 _ L) in H. discriminate. }
    unfold Cost3D.cost3 in E.
    destruct (cm_read cm cur) as [c1|] eqn:E1; [|discriminate]. cbn [bind] in E.
    destruct (99 <? c1) eqn:C1; [exfalso; eapply Hneg; eauto|].
    destruct (cm_read cm next) as [c2|] eqn:E2; [|discriminate]. cbn [bind] in E.
    destruct (99 <? c2) eqn:C2; [exfalso; eapply Hneg; eauto|].
    pose proof (read_free _ _ E1 C1) as F1. pose proof (read_free _ _ E2 C2) as F2.
    assert (Ha : 0 < cm_a cm) by (unfold free in F1; lia).
    destruct (cycleElement_spec (vt next - vt cur) (cm_a cm) Ha) as (d2 & Ed & Hdir & Hr).
    rewrite Ed in E. cbn [bind] in E.
    change (vx [vx next - vx cur; vy next - vy cur; d2]) with (vx next - vx cur) in E.
    change (vy [vx next - vx cur; vy next - vy cur; d2]) with (vy next - vy cur) in E.
    destruct ((vx next - vx cur =? 0) && (vy next - vy cur =? 0)) eqn:Exy.
    - assert (vx next = vx cur) by lia. assert (vy next = vy cur) by lia.
      inversion Hp as [| |d k Hx Hy Hd Hrd Hk|pg m Hnot]; subst; [exact F1|exact F2| |exfalso; apply Hnot; split; assumption].
      assert (d = d2) as ->.
      { destruct Hd as [k1 ->], Hdir as [k2 Hk2]. rewrite Hk2 in *. unfold signed_range in *. 
        assert (k1 = k2) by nia. subst. reflexivity. }
      destruct (turn_loop cm thr (Z.to_nat (Z.abs d2)) (if d2 <? 0 then -1 else 1) cur 0) as [[s|]|] eqn:Et;
        [|exfalso; eapply Hneg; eauto|discriminate].
      destruct cur as [|x [|y [|t [|]]]]; try discriminate.
      unfold free in F1. cbn [vx vy vt nth] in *.
      assert (Hkd : k = d2 \/ Z.abs k < Z.abs d2 /\ (k = 0 \/ (k < 0 <-> d2 < 0))) by lia.
      destruct Hkd as [->|[Hk1 Hk2]].
      + destruct next as [|x' [|y' [|t' [|]]]]; try discriminate. cbn [vx vy vt nth] in *. subst x' y'.
        destruct Hdir as [j Hj]. replace ((t + d2) mod cm_a cm) with t'; [exact F2|].
        unfold free in F2. cbn [vx vy vt nth] in F2. apply (Z.mod_unique_pos _ _ j); [lia|]. lia.
      + assert (Hdd : (if d2 <? 0 then -1 else 1) = 1 \/ (if d2 <? 0 then -1 else 1) = -1) by (destruct (d2 <? 0); auto).
        pose proof (turn_loop_free _ _ x y t 0 s Hdd ltac:(lia) Et (Z.abs k) ltac:(lia)) as HF.
        replace (t + (if d2 <? 0 then -1 else 1) * Z.abs k) with (t + k) in HF; [exact HF|].
        destruct (d2 <? 0) eqn:E0; lia.
    - inversion Hp as [| |d k Hx Hy Hd Hrd Hk|pg m Hnot Hpg Hm]; subst; [exact F1|exact F2|exfalso; lia|].
      destruct ((range <? Z.abs (vx next - vx cur)) || (range <? Z.abs (vy next - vy cur))); [discriminate|].
      destruct (cycleUnsignedElement_spec (vt next) (cm_a cm) Ha) as (di & Edi & Hdi & Hri).
      assert (di = vt next mod cm_a cm) as ->.
      { destruct Hdi as [j Hj]. unfold unsigned_range in Hri. apply (Z.mod_unique_pos _ _ (- j)); lia. }
      rewrite Edi in E. cbn [bind] in E. rewrite find_yaw_spec in E by exact Hps. cbn [bind] in E.
      rewrite Hpg in E.
      destruct (d2 =? 0).
      + destruct (motion_loop cm cm_hyst hysteresis thr cur (pg_motion pg) 0 0 0) as [[[[s1 s2] s3]|]|] eqn:Em;
          [|exfalso; eapply Hneg; eauto|discriminate].
        eapply motion_loop_free; eauto.
      + destruct (_ || _); [exfalso; eapply Hneg; eauto|].
        destruct (motion_loop cm cm_hyst hysteresis thr cur (pg_motion pg) 0 0 0) as [[[[s1 s2] s3]|]|] eqn:Em;
          [|exfalso; eapply Hneg; eauto|discriminate].
        eapply motion_loop_free; eauto.
  Qed.
End Cost.

Lemma uniq_rep a x y j : 0 < a -> 0 <= x < a -> 0 <= y < a -> x = y + j * a -> x = y.
Proof.
  intros Ha Hx Hy E. assert (j < 1) by (apply (Zmult_gt_0_lt_reg_r _ _ a); lia).
  assert (-1 < j) by (apply (Zmult_gt_0_lt_reg_r _ _ a); lia). assert (j = 0) by lia. subst. lia.
Qed.

(** *** Definedness *)
Section Defined.
  Context {F : Type} (K : cost_ops F).
  Variables (cm cm_hyst : costmap) (hysteresis : bool) (thr : Z).
  Variables (C : cache) (page_size range : Z) (min_b max_b : vec) (N : @numeric F).
  Notation cost3 := (cost3 K cm cm_hyst hysteresis thr C page_size range min_b max_b N).

  Lemma read_ok p : cm_inside cm p = true -> cm_read cm p = Ok (cm_at cm p).
  Proof. unfold cm_read. intros ->. reflexivity. Qed.

  Lemma turn_loop_ok : forall n dir x y t sum, (dir = 1 \/ dir = -1) -> cm_inside cm [x; y; t] = true ->
    exists r, turn_loop cm thr n dir [x; y; t] sum = Ok r.
  Proof.
    induction n as [|n IH]; intros dir x y t sum Hd Hi; cbn [turn_loop]; [eauto|].
    rewrite (read_ok _ Hi). cbn [bind]. destruct (99 <? _); [eauto|]. cbn [vx vy vt nth]. apply IH; [exact Hd|].
    unfold cm_inside in *. cbn [vx vy vt nth] in *.
    destruct (t + dir <? 0) eqn:E1; [lia|]. destruct (cm_a cm <=? t + dir) eqn:E2; lia.
  Qed.

  Lemma motion_loop_ok cur : cm_w cm_hyst = cm_w cm -> cm_h cm_hyst = cm_h cm -> cm_a cm_hyst = cm_a cm ->
    forall m a b c, (forall d, In d m -> cm_inside cm [vx cur + vx d; vy cur + vy d; vt d] = true) ->
    exists r, motion_loop cm cm_hyst hysteresis thr cur m a b c = Ok r.
  Proof.
    intros Hw Hh Ha. induction m as [|d m IH]; intros a b c Hm; cbn [motion_loop]; [eauto|].
    pose proof (Hm d (or_introl eq_refl)) as Hd. rewrite (read_ok _ Hd). cbn [bind].
    destruct (99 <? _); [eauto|].
    assert (HH : exists h, (if hysteresis then cm_read cm_hyst [vx cur + vx d; vy cur + vy d; vt d] else Ok 0) = Ok h).
    { destruct hysteresis; [|eauto]. unfold cm_read. unfold cm_inside in *. rewrite Hw, Hh, Ha, Hd. eauto. }
    destruct HH as [h ->]. cbn [bind]. apply IH. intros d' Hd'. apply Hm. right. exact Hd'.
  Qed.

  Lemma cost3_defined (tried : Z -> vec -> Prop) cur next :
    cm_w cm_hyst = cm_w cm -> cm_h cm_hyst = cm_h cm -> cm_a cm_hyst = cm_a cm ->
    length cur = 3%nat -> 0 < page_size -> page_size = cm_a cm ->
    vx max_b = cm_w cm - vx min_b -> vy max_b = cm_h cm - vy min_b ->
    cache_ok tried C (cm_a cm) page_size min_b -> tried (vt cur) [vx next - vx cur; vy next - vy cur; vt next] ->
    cm_inside cm cur = true -> cm_inside cm next = true ->
    Z.abs (vx next - vx cur) <= range -> Z.abs (vy next - vy cur) <= range ->
    exists c, cost3 cur next = Ok c.
  Proof.
    intros Hw Hh Ha Lc Hps Hpa Hbx Hby HC HT H1 H2 Hrx Hry. unfold Cost3D.cost3.
    rewrite (read_ok _ H1), (read_ok _ H2). cbn [bind].
    destruct (99 <? cm_at cm cur); [eauto|]. destruct (99 <? cm_at cm next); [eauto|].
    assert (Hpos : 0 < cm_a cm) by lia.
    destruct (cycleElement_spec (vt next - vt cur) (cm_a cm) Hpos) as (d2 & Ed & Hdir & Hr).
    rewrite Ed. cbn [bind].
    change (vx [vx next - vx cur; vy next - vy cur; d2]) with (vx next - vx cur).
    change (vy [vx next - vx cur; vy next - vy cur; d2]) with (vy next - vy cur).
    destruct ((vx next - vx cur =? 0) && (vy next - vy cur =? 0)) eqn:Exy.
    - destruct cur as [|x [|y [|t [|]]]]; try discriminate.
      destruct (turn_loop_ok (Z.to_nat (Z.abs d2)) (if d2 <? 0 then -1 else 1) x y t 0) as [r Hr'];
        [destruct (d2 <? 0); auto|exact H1|]. rewrite Hr'. cbn [bind]. destruct r; eauto.
    - replace ((range <? Z.abs (vx next - vx cur)) || (range <? Z.abs (vy next - vy cur))) with false by lia.
      destruct (cycleUnsignedElement_spec (vt next) (cm_a cm) Hpos) as (di & Edi & Hdi & Hri).
      rewrite Edi. cbn [bind]. rewrite find_yaw_spec by exact Hps. cbn [bind].
      assert (Hyaw : 0 <= vt cur mod page_size < page_size) by (apply Z.mod_pos_bound; lia).
      unfold cm_inside in H1, H2.
      assert (Et : vt cur mod page_size = vt cur) by (apply Z.mod_small; lia).
      assert (di = vt next).
      { destruct Hdi as [j Hj]. unfold unsigned_range in Hri. apply (uniq_rep (cm_a cm) di (vt next) j); lia. }
      subst di. rewrite <- Et in HT at 1.
      destruct (d2 =? 0) eqn:Ez.
      + assert (Heq : vt next = vt cur).
        { assert (d2 = 0) by lia. subst d2. destruct Hdir as [j Hj]. apply (uniq_rep (cm_a cm) (vt next) (vt cur) (- j)); lia. }
        destruct (assoc _ _) as [pg|] eqn:Epg; [|eauto].
        destruct (motion_loop_ok cur Hw Hh Ha (pg_motion pg) 0 0 0) as [r Hr'].
        { intros m Hm. destruct (HC _ _ _ _ Hyaw HT Epg Hm) as (A1 & A2 & _).
          destruct A2 as [A4 A5]; [rewrite Et; exact Heq|].
          unfold cm_inside. cbn [vx vy vt nth] in A4, A5 |- *. lia. }
        rewrite Hr'. cbn [bind]. destruct r as [[[s1 s2] s3]|]; eauto.
      + destruct ((vx cur <? vx min_b) || (vy cur <? vy min_b) || (vx max_b <=? vx cur) || (vy max_b <=? vy cur)) eqn:Eb; [eauto|].
        assert (Ez' : vt next <> vt cur \/ cm_a cm = 1).
        { destruct (Z.eq_dec (cm_a cm) 1) as [|A1]; [auto|left]. intros N'. rewrite N', Z.sub_diag in Hdir. destruct Hdir as [j Hj]. unfold signed_range in Hr.
          assert (- ((cm_a cm + 1) / 2) > - cm_a cm /\ cm_a cm / 2 < cm_a cm) as [B1 B2] by (split; [apply Z.lt_gt, (proj1 (Z.opp_lt_mono _ _)); apply Z.div_lt_upper_bound; lia|apply Z.div_lt_upper_bound; lia]).
          assert (j = 0) by nia. subst j. lia. }
        destruct (assoc _ _) as [pg|] eqn:Epg; [|eauto].
        destruct (motion_loop_ok cur Hw Hh Ha (pg_motion pg) 0 0 0) as [r Hr'].
        { intros m Hm. destruct (HC _ _ _ _ Hyaw HT Epg Hm) as (A1 & _ & A3).
          destruct A3 as [A3 A4]; [cbn [vt nth]; rewrite Et; exact Ez'|].
          unfold cm_inside. cbn [vx vy vt nth] in A3, A4 |- *. lia. }
        rewrite Hr'. cbn [bind]. destruct r as [[[s1 s2] s3]|]; eauto.
  Qed.
End Defined.

(** Straight pages meet [cache_ok]. *)
Lemma straight_page_ok angle istep syaw d total m : 0 <= syaw < angle -> 0 < total ->
  In m (pg_motion (build_page angle istep d (straight_samples syaw d total))) ->
  vt m = syaw /\ (0 <= vx m <= vx d \/ vx d <= vx m <= 0) /\ (0 <= vy m <= vy d \/ vy d <= vy m <= 0).
Proof.
  intros Hs Ht H. apply build_loop_origin in H. destruct H as [[]|(p & Hp & -> & _)].
  unfold straight_samples in Hp. apply in_map_iff in Hp. destruct Hp as (s & <- & Hsr).
  apply in_range_excl in Hsr. unfold to_cell. cbn [vx vy vt nth px py pt].
  assert (Hpos : Z.pos (Z.to_pos total) = total) by (apply Z2Pos.id; lia).
  split; [rewrite lround_Z; apply Z.mod_small; exact Hs|].
  split; apply lround_between; lia.
Qed.

(** *** Poses of the interpolated path *)
Lemma in_cell_shift angle a p c : in_cell angle p c ->
  in_cell angle (shift a p) [vx a + vx c; vy a + vy c; vt c].
Proof.
  intros (H1 & H2 & H3). unfold in_cell, shift. cbn [px py pt vx vy vt nth]. split; [|split; [|exact H3]].
  - setoid_replace (inject_Z (vx a) + px p - inject_Z (vx a + vx c))%Q with (px p - inject_Z (vx c))%Q; [exact H1|].
    rewrite inject_Z_plus. ring.
  - setoid_replace (inject_Z (vy a) + py p - inject_Z (vy a + vy c))%Q with (py p - inject_Z (vy c))%Q; [exact H2|].
    rewrite inject_Z_plus. ring.
Qed.

Lemma in_cell_lift angle a : 0 <= vt a < angle -> in_cell angle (lift a) a.
Proof.
  intros H. unfold in_cell, lift. cbn [px py pt].
  assert (Z0 : forall z, (Qabs (inject_Z z - inject_Z z) <= 1 # 2)%Q).
  { intros z. setoid_replace (inject_Z z - inject_Z z)%Q with 0%Q by ring. discriminate. }
  split; [apply Z0|]. split; [apply Z0|]. exists (vt a). split; [apply Z0|]. symmetry. apply Z.mod_small. exact H.
Qed.

(** Pages whose interpolated poses lie in their own cells. *)
Definition cache_covered (C : cache) (angle : Z) : Prop :=
  forall yaw d pg p, assoc d (C yaw) = Some pg -> In p (pg_interp pg) ->
    exists c, In c (d :: pg_motion pg) /\ in_cell angle p c.

Lemma interp_in_swept C ps cm : 0 < ps -> ps = cm_a cm -> cache_covered C ps ->
  forall rest prev r, Forall (fun v => length v = 3%nat /\ 0 <= vt v < ps) (prev :: rest) ->
  interp_loop C ps prev rest = Ok r -> forall p, In p r ->
  (exists w, In w (prev :: rest) /\ in_cell ps p w) \/
  exists pre a b post, prev :: rest = pre ++ a :: b :: post /\ exists c, swept C ps cm a b c /\ in_cell ps p c.
Proof.
  intros Hp Hpa HC. induction rest as [|q rest IH]; intros prev r HF E p Hin; simpl in E.
  - injection E as <-. destruct Hin as [<-|[]]. left. exists prev. split; [left; reflexivity|].
    apply in_cell_lift. inversion HF; tauto.
  - inversion HF as [|? ? Hprev HF']; subst. inversion HF' as [|? ? Hq _]; subst.
    destruct (segment C (cm_a cm) prev q) as [s|] eqn:Es; [|discriminate]. simpl in E.
    destruct (interp_loop C (cm_a cm) q rest) as [t|] eqn:Et; [|discriminate]. simpl in E. injection E as <-.
    apply in_app_or in Hin. destruct Hin as [Hin|Hin].
    2:{ destruct (IH q t HF' Et p Hin) as [(w & Hw & Hc)|(pre & a & b & post & E1 & c & Hc)].
        - left. exists w. split; [right; exact Hw|exact Hc].
        - right. exists (prev :: pre), a, b, post. split; [simpl; rewrite E1; reflexivity|eauto]. }
    unfold segment in Es. destruct ((vx prev =? vx q) && (vy prev =? vy q)) eqn:Exy.
    { injection Es as <-. destruct Hin as [<-|[]]. left. exists prev. split; [left; reflexivity|].
      apply in_cell_lift; tauto. }
    unfold find_from in Es. rewrite find_yaw_spec in Es by exact Hp. simpl in Es.
    destruct (assoc _ _) as [pg|] eqn:Ea; injection Es as <-.
    2:{ destruct Hin as [<-|[]]. left. exists prev. split; [left; reflexivity|]. apply in_cell_lift; tauto. }
    apply in_map_iff in Hin. destruct Hin as (p0 & <- & Hp0).
    destruct (HC _ _ _ _ Ea Hp0) as (c & Hc & Hcell). right. exists [], prev, q, rest. split; [reflexivity|].
    exists [vx prev + vx c; vy prev + vy c; vt c]. split; [|apply in_cell_shift; exact Hcell].
    destruct Hc as [<-|Hc].
    + cbn [vx vy vt nth]. replace (vx prev + (vx q - vx prev)) with (vx q) by lia.
      replace (vy prev + (vy q - vy prev)) with (vy q) by lia.
      destruct q as [|a [|b [|e [|]]]]; try (destruct Hq; discriminate). apply sw_end.
    + apply sw_move with (pg := pg); [lia| |exact Hc].
      rewrite (Z.mod_small (vt q)) by tauto. exact Ea.
Qed.
