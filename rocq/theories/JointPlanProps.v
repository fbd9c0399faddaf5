(** C80: the joint planner, end to end. *)
From Coq Require Import List ZArith QArith Qreals Lia Lra Psatz ZifyBool Reals.
From Flocq Require Import Core.Core Core.Raux IEEE754.BinarySingleNaN.
From Verif Require Import Common CyclicVec CyclicVecSpec CyclicVecProofs GridMapSpec CostAlg CostF32 FloatLib MotionCache Motion3DProofs SafetyLimiter BbfFloat
  Joint2D Joint2DProofs Joint2DProps LinkBody LinkBodyProps AStar AStarSpec AStarProofs AStarSearch AStarComplete AStarProps AStarFloatProps JointPlan.
Import ListNotations.
Local Open Scope Z_scope.

(** ** Specification *)
(** Joint angles (in units of one cell) within one turn of zero, up to half a cell. *)
Definition within_a_turn (res : Z) (g : jangle) : Prop :=
  (- (IZR res) - 1 / 2 < Q2R (fst g) < IZR res - 1 / 2)%R /\ (- (IZR res) - 1 / 2 < Q2R (snd g) < IZR res - 1 / 2)%R.
(** One move of the planner: at most [range] cells per joint (over the border of the map of two turns if need be), and accepted (C20: along the cells of
    the way the links do not collide). *)
Definition one_move (range res : Z) (c0 c1 w : f32) (cm : jcell -> Z) (p q : jcell) : Prop :=
  (exists a b, Z.abs a <= range /\ Z.abs b <= range /\ same_direction (2 * res) (fst q) (fst p + a) /\ same_direction (2 * res) (snd q) (snd p + b)) /\
  in_joint_map res q = true /\ accepted c0 c1 w res cm p q.
Definition reachable (range res : Z) (c0 c1 w : f32) (cm : jcell -> Z) (s e : jcell) : Prop :=
  exists l, each_move (one_move range res c0 c1 w cm) (s :: l) /\ last (s :: l) s = e.
(** Coefficients small enough for the estimates to fit into an int. *)
Definition small_coef (c : f32) : Prop := (B2R c <= 4000)%R.

(** ** Proofs *)
Lemma within_in_map res g : 0 < res -> within_a_turn res g -> in_joint_map res (metric2Grid res g) = true.
Proof.
  intros Hr [[A1 A2] [B1 B2]]. destruct (stands_metric res g) as [S0 S1]. unfold metric2Grid in *. cbn [fst snd] in S0, S1.
  apply Rabs_le_inv in S0, S1. rewrite minus_IZR, plus_IZR in S0, S1.
  assert (- res - 1 < lround (fst g) < res /\ - res - 1 < lround (snd g) < res).
  { repeat split; apply lt_IZR; try rewrite minus_IZR, opp_IZR; lra. }
  unfold in_joint_map. cbn [fst snd]. lia.
Qed.
Lemma vj_jv v : length v = 2%nat -> vj (jv v) = v.
Proof. destruct v as [|a [|b [|c v]]]; intros H; try discriminate. reflexivity. Qed.
Lemma jv_vj c : jv (vj c) = c.
Proof. destruct c. reflexivity. Qed.
Lemma valid_jv res v : valid [2 * res; 2 * res] v <-> length v = 2%nat /\ in_joint_map res (jv v) = true.
Proof.
  unfold valid, in_joint_map, jv. split.
  - set (z := 2 * res) in *. clearbody z. intros H. inversion H as [|? a ? l' H1 H2]; subst. inversion H2 as [|? b ? l2 H3 H4]; subst. inversion H4; subst. cbn [nth fst snd]. cbv beta in *. split; [reflexivity|].
    rewrite !andb_true_iff, !Z.leb_le, !Z.ltb_lt. lia.
  - intros [L H]. destruct v as [|a [|b [|c v]]]; try discriminate. cbn [nth fst snd] in H.
    rewrite !andb_true_iff, !Z.leb_le, !Z.ltb_lt in H. constructor; [lia|]. constructor; [lia|constructor].
Qed.
Lemma canon_in_map res c : in_joint_map res c = true -> canon unsigned_range 0 (vj c) [2 * res; 2 * res] (vj c).
Proof.
  intros H. split; [reflexivity|]. intros i e r x H1 H2 H3. rewrite H1 in H3. injection H3 as <-. cbn [Nat.ltb Nat.leb].
  assert (D : forall z, same_direction r z z) by (intros z; exists 0; lia). split; [apply D|]. unfold unsigned_range, in_joint_map, vj in *.
  destruct i as [|[|i]]; cbn [nth_error] in H1, H2; [| |destruct i; discriminate].
  - assert (r = 2 * res) by congruence. assert (e = fst c) by congruence. lia.
  - assert (r = 2 * res) by congruence. assert (e = snd c) by congruence. lia.
Qed.
Lemma neighbour_iff range v : In v (neighbours range) <-> exists a b, v = [a; b] /\ Z.abs a <= range /\ Z.abs b <= range.
Proof.
  unfold neighbours, square. rewrite in_map_iff. split.
  - intros ([a b] & <- & H). apply in_prod_iff in H. destruct H as [H1 H2]. apply in_range_incl in H1, H2. exists a, b. split; [reflexivity|lia].
  - intros (a & b & -> & H1 & H2). exists (a, b). split; [reflexivity|]. apply in_prod_iff. rewrite !in_range_incl. lia.
Qed.

Lemma add_weighted_bound cost sum w : is_finite cost = true -> (0 <= B2R cost <= bpow radix2 32)%R -> 0 <= sum <= 100000 -> coef_ok w ->
  (B2R (add_weighted cost sum w) <= bpow radix2 41)%R.
Proof.
  intros Fc Hc Hs [Fw Hw]. unfold add_weighted.
  destruct (f32_of_Z_exact sum) as [Fs Es]; [lia|]. assert (Sr : (0 <= IZR sum <= 100000)%R) by (split; apply IZR_le; lia).
  destruct zero32 as [Fz Ez]. destruct (pow32 40) as [Fh Eh]; [cbn [In]; auto 10|]. destruct (pow32 41) as [Fk Ek]; [cbn [In]; auto 10|].
  destruct (mult_between 24 128 p32 e32 (B754_zero false) (f32_of 1 40) Fz Fh (f32_of_Z sum) w Fs Fw) as [Fm Hm].
  { rewrite Ez, Eh, Es. change (bpow radix2 40) with 1099511627776%R. nra. }
  fold (mul32 (f32_of_Z sum) w) in Fm, Hm. rewrite Ez, Eh in Hm. set (m := mul32 (f32_of_Z sum) w) in *. clearbody m.
  destruct (to64_exact m Fm) as [Fm6 Em]. destruct (to64_exact cost Fc) as [Fc6 Ec].
  destruct (to64_exact _ Fz) as [Fz6 Ez6]. destruct (to64_exact _ Fh) as [Fh6 Eh6]. destruct (to64_exact _ Fk) as [Fk6 Ek6].
  value (f64_of 100 0). destruct V as [F100 V100].
  destruct (div_between 53 1024 p64 e64 (to64 (B754_zero false)) (to64 (f32_of 1 40)) Fz6 Fh6 (to64 m) (f64_of 100 0) Fm6) as [Fq Hq].
  { rewrite V100. lra. }
  { rewrite Em, Ez6, Eh6, Ez, Eh, V100. set (K := bpow radix2 40) in *. lra. }
  fold (fdiv (to64 m) (f64_of 100 0)) in Fq, Hq. rewrite Ez6, Eh6, Ez, Eh in Hq. set (q := fdiv (to64 m) (f64_of 100 0)) in *. clearbody q.
  destruct (plus_between 53 1024 p64 e64 (to64 cost) (to64 (f32_of 1 41)) Fc6 Fk6 (to64 cost) q Fc6 Fq) as (Ft & _ & Ht).
  { rewrite Ec, Ek6, Ek. change (bpow radix2 40) with 1099511627776%R in *. change (bpow radix2 41) with 2199023255552%R. change (bpow radix2 32) with 4294967296%R in *. lra. }
  fold (add64 (to64 cost) q) in Ft, Ht. rewrite Ec, Ek6 in Ht.
  destruct (to32_ge (add64 (to64 cost) q) cost (f32_of 1 41) Ft Fc Fk Ht) as [R1 R2]. rewrite Ek in R2. apply R2.
Qed.

(** The cost of an accepted move. *)
Lemma move_cost_bound c0 c1 w res cm cur next c : Joint2DProps.sane c0 c1 w res cm -> in_joint_map res cur = true -> in_joint_map res next = true ->
  move_cost res c0 c1 w cm cur next = Ok c -> Bltb c (B754_zero false) = false -> f32_cost 102 c.
Proof.
  intros [S0 S1 Sw Sr Sc] Hc Hn E L. unfold move_cost in E.
  destruct (to_u32 (2 * res) <=? to_u32 (fst next) : bool); cbn [orb] in E.
  { injection E as <-. exfalso. revert L. vm_compute. discriminate. }
  destruct (to_u32 (2 * res) <=? to_u32 (snd next) : bool).
  { injection E as <-. exfalso. revert L. vm_compute. discriminate. }
  destruct (cycle2_run res (fst next - fst cur, snd next - snd cur) ltac:(lia)) as [d (Ed & A & B & C & D)]. cbn [fst snd] in A, B.
  assert (SH : shortest_way res cur next d) by (split; [exact A|]; split; [exact B|]; split; assumption).
  destruct (shortest_small res cur next d Sr SH) as [D0 D1]. destruct (euclid2_real c0 c1 d S0 S1 D0 D1) as [Fe Ee].
  rewrite Ed in E. cbn [bind] in E.
  destruct (check_samples_run res cm ltac:(lia) (fun p => Sc _ (wrapped_in_map res p ltac:(lia))) (sample_cells cur d) 0 ltac:(lia)) as [r [Er P]].
  rewrite Er in E. cbn [bind] in E. destruct r as [s|].
  - destruct P as [Fr Bs].
    assert (Ls : (length (sample_cells cur d) <= 724)%nat).
    { unfold sample_cells. rewrite samples_length. destruct (travel_facts d D0 D1) as (T & _ & _). lia. }
    destruct (add_weighted_real (euclid2 c0 c1 d) s w Fe Ee ltac:(lia) Sw) as [Fa Ha].
    pose proof (add_weighted_bound (euclid2 c0 c1 d) s w Fe Ee ltac:(lia) Sw) as Hb.
    assert (c = add_weighted (euclid2 c0 c1 d) s w) as -> by congruence.
    split; [exact Fa|]. split; [lra|]. apply (Rle_trans _ _ _ Hb). apply bpow_le. lia.
  - assert (c = f32_of_Z (-1)) as -> by congruence. exfalso. revert L. vm_compute. discriminate.
Qed.

(** The estimates fit into an int. *)
Lemma term_small c z : coef_ok c -> small_coef c -> Z.abs z <= 2048 ->
  is_finite (Babs (mul32 c (f32_of_Z z))) = true /\ (0 <= B2R (Babs (mul32 c (f32_of_Z z))) <= 8192000)%R.
Proof.
  intros [Fc Hc] Sm Hz. unfold small_coef in Sm. destruct (f32_of_Z_exact z) as [Fz Ez]; [lia|].
  destruct (f32_of_Z_exact 8192000) as [Fh Eh]; [lia|]. destruct (opp32 _ Fh) as [Fl El].
  assert (Zr : (-2048 <= IZR z <= 2048)%R) by (split; apply IZR_le; lia).
  destruct (mult_between 24 128 p32 e32 (Bopp (f32_of_Z 8192000)) (f32_of_Z 8192000) Fl Fh c (f32_of_Z z) Fc Fz) as [Fm Hm].
  { rewrite El, Eh, Ez. nra. }
  fold (mul32 c (f32_of_Z z)) in Fm, Hm. rewrite El, Eh in Hm.
  rewrite is_finite_Babs, B2R_Babs. split; [exact Fm|]. split; [apply Rabs_pos|]. apply Rabs_le. lra.
Qed.

Lemma estimate_small c0 c1 res p q : coef_ok c0 -> coef_ok c1 -> small_coef c0 -> small_coef c1 -> 1 <= res <= 1024 ->
  in_joint_map res p = true -> in_joint_map res q = true ->
  is_finite (estimate2 c0 c1 p q) = true /\ (0 <= B2R (estimate2 c0 c1 p q) <= 16384000)%R.
Proof.
  intros H0 H1 M0 M1 Hr Ip Iq. unfold in_joint_map in Ip, Iq. unfold estimate2, euclid2. cbn [fst snd].
  destruct (term_small c0 (fst q - fst p) H0 M0 ltac:(lia)) as [F0 E0]. destruct (term_small c1 (snd q - snd p) H1 M1 ltac:(lia)) as [F1 E1].
  set (a := Babs (mul32 c0 (f32_of_Z (fst q - fst p)))) in *. set (b := Babs (mul32 c1 (f32_of_Z (snd q - snd p)))) in *. clearbody a b.
  destruct zero32 as [Fz Ez]. destruct (f32_of_Z_exact 8192000) as [Fh Eh]; [lia|]. destruct (f32_of_Z_exact 16384000) as [Fk Ek]; [lia|].
  destruct (plus_between 24 128 p32 e32 (B754_zero false) (f32_of_Z 8192000) Fz Fh (B754_zero false) a Fz F0) as (Fs & _ & Hs).
  { rewrite Ez, Eh. lra. }
  fold (add32 (B754_zero false) a) in Fs, Hs. rewrite Ez, Eh in Hs. set (u := add32 (B754_zero false) a) in *. clearbody u.
  destruct (plus_between 24 128 p32 e32 (B754_zero false) (f32_of_Z 16384000) Fz Fk u b Fs F1) as (Ft & _ & Ht).
  { rewrite Ez, Ek. lra. }
  fold (add32 u b) in Ft, Ht. rewrite Ez, Ek in Ht. split; [exact Ft|lra].
Qed.
Lemma estimate_truncates (x : f32) : is_finite x = true -> (0 <= B2R x <= 16384000)%R -> exists c, ftrunc KF32 x = Ok c.
Proof.
  intros F H. cbn [ftrunc KF32]. unfold f32_trunc. rewrite F.
  assert (Hz : 0 <= Btrunc x <= 16384000).
  { split; apply le_IZR; rewrite (Btrunc_correct 24 128 e32 x).
    - rewrite <- (round_0 radix2 (FIX_exp 0) Ztrunc). apply round_le; try typeclasses eauto. apply H.
    - rewrite <- (round_generic radix2 (FIX_exp 0) Ztrunc 16384000).
      + apply round_le; try typeclasses eauto. apply H.
      + apply generic_format_FIX. exists (Float radix2 16384000 0); [unfold F2R; cbn [Fnum Fexp bpow]; ring|reflexivity]. }
  replace ((- 2 ^ 31 <=? Btrunc x) && (Btrunc x <? 2 ^ 31)) with true by lia. eauto.
Qed.
Lemma finite_admissible (x : f32) : is_finite x = true -> (0 <= B2R x <= bpow radix2 127)%R -> admissible_value KF32 x.
Proof.
  intros F H. assert (C : f32_cost 127 x) by (split; assumption). pose proof (f32_cost_lt_max x C) as L. split.
  - cbn [fltb fzero KF32]. apply ltb_false. right. right. rewrite (finite_key 24 128 x F). change (key (B754_zero false)) with 0%R. lra.
  - destruct (feqb KF32 x (CostAlg.fmax KF32)) eqn:E; [|reflexivity]. exfalso. cbn [feqb fltb CostAlg.fmax KF32] in E, L.
    rewrite (Beqb_correct 24 128 x _ F) in E by reflexivity. rewrite (Bltb_correct 24 128 x _ F) in L by reflexivity.
    destruct (Req_bool_spec (B2R x) (B2R (@Bmax_float 24 128 p32 e32))) as [Q|Q]; [|discriminate]. rewrite Q in L. rewrite Rlt_bool_false in L by lra. discriminate.
Qed.

Lemma in_map_int32 res q : 1 <= res <= 1024 -> in_joint_map res q = true -> int32 (fst q) /\ int32 (snd q).
Proof. unfold in_joint_map, int32. lia. Qed.

Section Search.
  Variables (range res : Z) (c0 c1 w : f32) (cm : jcell -> Z).
  Hypothesis Sane : Joint2DProps.sane c0 c1 w res cm.
  Hypothesis M0 : small_coef c0.
  Hypothesis M1 : small_coef c1.
  Hypothesis Hrange : 0 <= range <= 2 ^ 30.
  Notation JM := (joint_model range res c0 c1 w cm).
  Notation size := [2 * res; 2 * res].
  Let Hr : 1 <= res <= 1024 := sane_res _ _ _ _ _ Sane.

  Lemma typed s e : well_typed 0 size JM [(vj s, fzero KF32)] (vj e).
  Proof.
    split; [lia|]. split; [repeat constructor; lia|]. split; [reflexivity|]. split; [repeat constructor|].
    intros p ss e' d H. cbn [m_searchGrids joint_model] in H. apply neighbour_iff in H. destruct H as (a & b & -> & A & B). split; [reflexivity|].
    constructor; [lia|]. constructor; [lia|constructor].
  Qed.
  (** A move of the search is a move of the specification. *)
  Lemma move_iff ss e p q : in_joint_map res (jv e) = true -> length p = 2%nat -> in_joint_map res (jv p) = true ->
    (move KF32 0 size JM ss e p q <-> length q = 2%nat /\ one_move range res c0 c1 w cm (jv p) (jv q)).
  Proof.
    intros Ie Lp Ip. unfold move. split.
    - intros ((d & Hd & Hc) & Hv & _ & Ha). apply valid_jv in Hv. destruct Hv as [Lq Iq]. split; [exact Lq|]. split; [|split; [exact Iq|]].
      + cbn [m_searchGrids joint_model] in Hd. apply neighbour_iff in Hd. destruct Hd as (a & b & -> & A & B). exists a, b. split; [exact A|]. split; [exact B|].
        destruct p as [|x [|y [|z p]]]; try discriminate. destruct q as [|x' [|y' [|z' q]]]; try discriminate. destruct Hc as [_ Hc].
        pose proof (Hc 0%nat (x + a) (2 * res) x' eq_refl eq_refl eq_refl) as [K0 _]. pose proof (Hc 1%nat (y + b) (2 * res) y' eq_refl eq_refl eq_refl) as [K1 _].
        split; [exact K0|exact K1].
      + cbn [m_cost joint_model] in Ha. unfold accepted. destruct (move_cost res c0 c1 w cm (jv p) (jv q)) as [c|] eqn:E.
        * exists c. split; [reflexivity|]. exact (proj1 Ha).
        * exfalso. destruct Ha as [Ha _]. revert Ha. vm_compute. discriminate.
    - intros (Lq & (a & b & A & B & K0 & K1) & Iq & (c & E & L)). split; [|split; [|split]].
      + exists [a; b]. split; [cbn [m_searchGrids joint_model]; apply neighbour_iff; eauto|].
        destruct p as [|x [|y [|z p]]]; try discriminate. destruct q as [|x' [|y' [|z' q]]]; try discriminate. split; [reflexivity|].
        unfold in_joint_map, jv in *. cbn [nth fst snd] in *.
        intros i e0 r u H1 H2 H3. cbn [Nat.ltb Nat.leb].
        destruct i as [|[|i]]; cbn [nth_error plus combine map] in H1, H2, H3; [| |destruct i; discriminate].
        * assert (r = 2 * res) by congruence. assert (u = x') by congruence. assert (e0 = x + a) by congruence. subst. split; [exact K0|unfold unsigned_range; lia].
        * assert (r = 2 * res) by congruence. assert (u = y') by congruence. assert (e0 = y + b) by congruence. subst. split; [exact K1|unfold unsigned_range; lia].
      + apply valid_jv. auto.
      + cbn [m_costEstim joint_model]. pose proof (sane_c0 _ _ _ _ _ Sane) as S0. pose proof (sane_c1 _ _ _ _ _ Sane) as S1. destruct (estimate_small c0 c1 res (jv q) (jv e) S0 S1 M0 M1 Hr Iq Ie) as [F H].
        apply finite_admissible; [exact F|]. split; [apply H|]. apply (Rle_trans _ (IZR (2 ^ 24))); [apply (Rle_trans _ _ _ (proj2 H)); apply IZR_le; lia|].
        change (IZR (2 ^ 24)) with (bpow radix2 24). apply bpow_le. lia.
      + cbn [m_cost joint_model]. rewrite E. destruct (move_cost_bound c0 c1 w res cm _ _ c Sane Ip Iq E L) as (F & H1 & H2).
        apply finite_admissible; [exact F|]. split; [exact H1|]. apply (Rle_trans _ _ _ H2). apply bpow_le. lia.
  Qed.
  Lemma linked_iff ss e : in_joint_map res (jv e) = true -> forall l p, length p = 2%nat -> in_joint_map res (jv p) = true ->
    linked (move KF32 0 size JM ss e) (p :: l) ->
    Forall (fun v => length v = 2%nat /\ in_joint_map res (jv v) = true) (p :: l) /\ each_move (one_move range res c0 c1 w cm) (map jv (p :: l)).
  Proof.
    intros Ie. induction l as [|q l IH]; intros p Lp Ip H; [split; [constructor; auto|exact I]|].
    destruct H as [H1 H2]. apply (move_iff ss e p q Ie Lp Ip) in H1. destruct H1 as [Lq H1].
    destruct (IH q Lq (proj1 (proj2 H1)) H2) as [A B]. split; [constructor; auto|]. split; [exact H1|exact B].
  Qed.
  Lemma linked_back ss e : in_joint_map res (jv e) = true -> forall l p, in_joint_map res p = true ->
    each_move (one_move range res c0 c1 w cm) (p :: l) -> linked (move KF32 0 size JM ss e) (map vj (p :: l)).
  Proof.
    intros Ie. induction l as [|q l IH]; intros p Ip H; [exact I|]. destruct H as [H1 H2].
    split; [|apply IH; [apply H1|exact H2]]. apply move_iff; [exact Ie|reflexivity|rewrite jv_vj; exact Ip|]. rewrite !jv_vj. auto.
  Qed.
  Lemma last_map {A B} (f : A -> B) l a : last (map f l) (f a) = f (last l a).
  Proof. induction l as [|x [|y l] IH]; [reflexivity|reflexivity|exact IH]. Qed.

  Lemma starts_are s (e : jcell) ss : in_joint_map res s = true -> wrapped_starts 0 size [(vj s, fzero KF32)] ss -> ss = [(vj s, fzero KF32)].
  Proof.
    intros Is HW. destruct (typed s e) as (T1 & T2 & T3 & T4 & _). eapply wrapped_unique; [| |exact HW|].
    - intros i r _ H. apply (Forall_nth _ _ _ _ T2) in H. lia.
    - exact T4.
    - constructor; [|constructor]. split; [apply canon_in_map; exact Is|reflexivity].
  Qed.
  Lemma goal_is (s e : jcell) e' : in_joint_map res e = true -> canon unsigned_range 0 (vj e) size e' -> e' = vj e.
  Proof.
    intros Ie HE. destruct (typed s e) as (T1 & T2 & T3 & T4 & _). eapply (canon_unique 0 size (vj e)); [exact T3|exact T2|exact HE|]. apply canon_in_map. exact Ie.
  Qed.
  Lemma estimates_ok s e : in_joint_map res s = true -> in_joint_map res e = true ->
    forall st s' e', In st [(vj s, fzero KF32)] -> canon unsigned_range 0 (fst st) size s' -> canon unsigned_range 0 (vj e) size e' ->
     valid size s' /\ fltb KF32 (m_costEstim JM s' e') (fzero KF32) = false /\ exists ce, ftrunc KF32 (m_costEstim JM s' e') = Ok ce.
  Proof.
    intros Is Ie st s' e' [<-|[]] A B. cbn [fst] in A. apply (goal_is s s s' Is) in A. apply (goal_is s e e' Ie) in B. subst s' e'.
    split; [apply valid_jv; rewrite jv_vj; auto|]. cbn [m_costEstim joint_model]. rewrite !jv_vj.
    pose proof (sane_c0 _ _ _ _ _ Sane) as S0. pose proof (sane_c1 _ _ _ _ _ Sane) as S1. destruct (estimate_small c0 c1 res s e S0 S1 M0 M1 Hr Is Ie) as [F H]. split; [|apply estimate_truncates; assumption].
    apply ltb_false. right. right. rewrite (finite_key 24 128 _ F). change (key (B754_zero false)) with 0%R. apply H.
  Qed.
End Search.

(** What [joint_plan] does once start and goal are in the map. *)
Lemma plan_cases fuel O ntask limit range res c0 c1 w cm sg eg : Joint2DProps.sane c0 c1 w res cm -> 2 <= res ->
  let s := metric2Grid res sg in let e := metric2Grid res eg in
  in_joint_map res s = true -> in_joint_map res e = true ->
  ((cm s = 100 \/ cm e = 100) /\ joint_plan fuel O ntask limit range res c0 c1 w cm sg eg = JDone None) \/
  (cm s <> 100 /\ cm e <> 100 /\
    ((accepted c0 c1 w res cm s e /\ joint_plan fuel O ntask limit range res c0 c1 w cm sg eg = JDone (Some [sg; eg])) \/
     (~ accepted c0 c1 w res cm s e /\ vj s <> vj e /\ joint_plan fuel O ntask limit range res c0 c1 w cm sg eg =
        match search KF32 0 [2 * res; 2 * res] (joint_model range res c0 c1 w cm) fuel O ntask limit (fzero KF32) [(vj s, fzero KF32)] (vj e) true with
        | SUB => JUndefined
        | SFuel => JRunning
        | SDone false _ _ => JDone None
        | SDone true _ path => match makePlan res c0 c1 w cm sg eg (Some (map jv path)) with Ok r => JDone r | UB => JUndefined end
        end))).
Proof.
  intros Sane H2 s e Is Ie. unfold joint_plan. cbv zeta. fold s e. unfold read_joint_map. rewrite Is, Ie.
  destruct (Z.eqb_spec (cm s) 100) as [Es|Es]; [left; auto|]. destruct (Z.eqb_spec (cm e) 100) as [Ee|Ee]; [left; auto|].
  right. split; [exact Es|]. split; [exact Ee|].
  destruct (in_map_int32 res e (sane_res _ _ _ _ _ Sane) Ie) as [I0 I1].
  destruct (move_cost_run c0 c1 w res cm s e Sane Is I0 I1) as (c & d & Ec & Ed & SH & P). rewrite Ed, Ec.
  destruct P as [(P & L & B)|(P & L & B)]; rewrite B.
  - left. split; [|reflexivity]. exists c. auto.
  - right. split; [|split; [|reflexivity]].
    + intros (c' & E' & L'). assert (c' = c) by congruence. subst c'. congruence.
    + intros Q. assert (Q' : s = e) by (rewrite <- (jv_vj s), <- (jv_vj e), Q; reflexivity).
      apply P. split; [exact Ie|]. intros p Hp. exfalso.
      assert (Zd : d = (0, 0)).
      { symmetry. apply (shortest_same res s e (0, 0) d); [pose proof (sane_res _ _ _ _ _ Sane); lia| |exact SH]. rewrite Q'. unfold shortest_way. cbn [fst snd].
        pose proof (sane_res _ _ _ _ _ Sane). rewrite !Z.sub_diag. unfold signed_range.
        assert (0 <= (res + 1) / 2) by (apply Z.div_pos; lia). assert (1 <= res / 2) by (apply Z.div_le_lower_bound; lia).
        split; [exists 0; lia|]. split; [exists 0; lia|]. split; [lia|lia]. }
      rewrite Zd in Hp. exact Hp.
Qed.

(** The path found by a search that succeeds. *)
Lemma found_path fuel O ntask limit range res c0 c1 w cm s e ab path : Joint2DProps.sane c0 c1 w res cm -> small_coef c0 -> small_coef c1 -> 0 <= range <= 2 ^ 30 ->
  in_joint_map res s = true -> in_joint_map res e = true -> fair_sched O ->
  search KF32 0 [2 * res; 2 * res] (joint_model range res c0 c1 w cm) fuel O ntask limit (fzero KF32) [(vj s, fzero KF32)] (vj e) true = SDone true ab path ->
  exists l, map jv path = s :: l /\ last (s :: l) s = e /\ each_move (one_move range res c0 c1 w cm) (s :: l) /\ forall q, In q (s :: l) -> in_joint_map res q = true.
Proof.
  intros Sane M0 M1 Hrange Is Ie HO E.
  destruct (C06_float32_path_ends_at_goal 0 [2 * res; 2 * res] (joint_model range res c0 c1 w cm) fuel O ntask limit (fzero KF32) [(vj s, fzero KF32)] (vj e) true ab path
    (typed range res c0 c1 w cm Sane Hrange s e) HO) as (ss & e' & HW & HE & (s' & c' & R1 & R2 & R3 & R4) & ND).
  - constructor; [reflexivity|constructor].
  - reflexivity.
  - intros a b e0 A B C. exact (proj1 (proj2 (estimates_ok range res c0 c1 w cm Sane M0 M1 Hrange s e Is Ie a b e0 A B C))).
  - exact E.
  - apply (starts_are range res c0 c1 w cm Sane Hrange s e ss Is) in HW. apply (goal_is range res c0 c1 w cm Sane Hrange s e e' Ie) in HE. subst ss e'.
    destruct R1 as [R1|[]]. assert (s' = vj s) by congruence. subst s'.
    destruct path as [|p path]; [discriminate|]. cbn [hd_error] in R2. assert (p = vj s) by congruence. subst p.
    assert (Ie' : in_joint_map res (jv (vj e)) = true) by (rewrite jv_vj; exact Ie). assert (Is' : in_joint_map res (jv (vj s)) = true) by (rewrite jv_vj; exact Is).
    destruct (linked_iff range res c0 c1 w cm Sane M0 M1 _ _ Ie' path (vj s) eq_refl Is' R4) as [A B].
    exists (map jv path). cbn [map] in B. rewrite jv_vj in B. split; [cbn [map]; rewrite jv_vj; reflexivity|].
    assert (X : s :: map jv path = map jv (vj s :: path)) by (cbn [map]; rewrite jv_vj; reflexivity).
    split; [|split; [exact B|]].
    + transitivity (last (map jv (vj s :: path)) (jv (vj s))); [rewrite X, jv_vj; reflexivity|]. rewrite last_map. transitivity (jv (vj e)); [f_equal; exact R3|apply jv_vj].
    + intros q Hq. rewrite X in Hq. apply in_map_iff in Hq. destruct Hq as (v & <- & Hv). rewrite Forall_forall in A. apply (A v Hv).
Qed.

Lemma F2_length {A B} (R : A -> B -> Prop) l l' : Forall2 R l l' -> length l = length l'.
Proof. induction 1; [reflexivity|cbn [length]; congruence]. Qed.

(** ** Theorems *)
(** Within one turn nothing the planner does is undefined, whatever the schedule, the queue limit and a cancellation. *)
Theorem C80_planning_is_defined fuel O ntask limit range res c0 c1 w cm sg eg :
  Joint2DProps.sane c0 c1 w res cm -> 2 <= res -> small_coef c0 -> small_coef c1 -> 0 <= range <= 2 ^ 30 -> fair_sched O ->
  within_a_turn res sg -> within_a_turn res eg ->
  joint_plan fuel O ntask limit range res c0 c1 w cm sg eg <> JUndefined.
Proof.
  intros Sane H2 M0 M1 Hrange HO Ws We. pose proof (sane_res _ _ _ _ _ Sane) as Hr.
  apply (within_in_map res _ ltac:(lia)) in Ws, We.
  destruct (plan_cases fuel O ntask limit range res c0 c1 w cm sg eg Sane H2 Ws We) as [[_ ->]|(Ns & Ne & [[_ ->]|(NA & Nv & ->)])]; [discriminate|discriminate|].
  set (s := metric2Grid res sg) in *. set (e := metric2Grid res eg) in *.
  destruct (search _ _ _ _ _ _ _ _ _ _ _ _) as [ok ab path| |] eqn:E; [|discriminate|].
  - destruct ok; [|discriminate].
    destruct (found_path fuel O ntask limit range res c0 c1 w cm s e ab path Sane M0 M1 Hrange Ws We HO E) as (l & El & _). rewrite El.
    unfold makePlan. cbv zeta. fold s e. unfold read_joint_map. rewrite Ws, We. cbn [bind].
    destruct (Z.eqb_spec (cm s) 100); [contradiction|]. destruct (Z.eqb_spec (cm e) 100); [contradiction|].
    destruct (in_map_int32 res e Hr We) as [I0 I1].
    destruct (move_cost_run c0 c1 w res cm s e Sane Ws I0 I1) as (c & d & Ec & Ed & SH & P). rewrite Ed, Ec. cbn [bind].
    destruct (Bleb (euclid2 c0 c1 d) c); [discriminate|]. cbn [tl].
    destruct (unwrap_run res ltac:(lia) l s s) as [l' (U & _)]; [split; exists 0; lia|]. rewrite U. discriminate.
  - exfalso. revert E. apply (C06_no_undefined_behaviour KF32 KF32_laws); [apply typed; assumption|exact HO|constructor; [reflexivity|constructor]|].
    intros a b e0 A B C. destruct (estimates_ok range res c0 c1 w cm Sane M0 M1 Hrange s e Ws We a b e0 A B C) as (V1 & _ & V2). auto.
Qed.

(** Without queue limit and cancellation the planner answers, and it refuses exactly if the start or the goal collides or no sequence of moves leads from one to the other. *)
Theorem C80_refused_exactly_if_there_is_no_way range res c0 c1 w cm sg eg :
  Joint2DProps.sane c0 c1 w res cm -> 2 <= res -> small_coef c0 -> small_coef c1 -> 0 <= range <= 2 ^ 30 ->
  within_a_turn res sg -> within_a_turn res eg ->
  let s := metric2Grid res sg in let e := metric2Grid res eg in
  exists fuel0, forall fuel O ntask, (fuel0 <= fuel)%nat -> fair_sched O -> (1 <= ntask)%nat -> (forall n, o_abort O n = false) ->
    exists r, joint_plan fuel O ntask 0 range res c0 c1 w cm sg eg = JDone r /\
      (r = None <-> cm s = 100 \/ cm e = 100 \/ (~ accepted c0 c1 w res cm s e /\ ~ reachable range res c0 c1 w cm s e)).
Proof.
  intros Sane H2 M0 M1 Hrange Ws We s e. pose proof (sane_res _ _ _ _ _ Sane) as Hr.
  pose proof (within_in_map res _ ltac:(lia) Ws) as Is. pose proof (within_in_map res _ ltac:(lia) We) as Ie. fold s in Is. fold e in Ie.
  destruct (list_eq_dec Z.eq_dec (vj s) (vj e)) as [Q|Q].
  { exists 0%nat. intros fuel O ntask _ HO Hn Hab.
    destruct (plan_cases fuel O ntask 0 range res c0 c1 w cm sg eg Sane H2 Is Ie) as [[C ->]|(Ns & Ne & [[A ->]|(NA & Nv & _)])].
    - exists None. split; [reflexivity|]. fold s e in C. tauto.
    - exists (Some [sg; eg]). split; [reflexivity|]. fold s e in A, Ns, Ne. split; [discriminate|]. tauto.
    - contradiction. }
  destruct (C08_float32_search_decides_reachability 0 [2 * res; 2 * res] (joint_model range res c0 c1 w cm) [(vj s, fzero KF32)] (vj e)
    (typed range res c0 c1 w cm Sane Hrange s e)) as [fuel0 HF].
  - constructor; [|constructor]. split; [reflexivity|]. cbn [fzero KF32 B2R snd]. split; [lra|apply bpow_ge_0].
  - intros ss e' p q HW HE Vp Hm. apply (goal_is range res c0 c1 w cm Sane Hrange s e e' Ie) in HE. subst e'.
    apply valid_jv in Vp. destruct Vp as [Lp Ip].
    apply (move_iff range res c0 c1 w cm Sane M0 M1 ss (vj e) p q ltac:(rewrite jv_vj; exact Ie) Lp Ip) in Hm.
    destruct Hm as (Lq & _ & Iq & (c & Ec & Lc)). cbn [m_cost joint_model]. rewrite Ec. exact (move_cost_bound c0 c1 w res cm _ _ c Sane Ip Iq Ec Lc).
  - constructor; [exact Q|constructor].
  - intros ss HW. apply (starts_are range res c0 c1 w cm Sane Hrange s e ss Is) in HW. subst ss. cbn [map fst]. repeat constructor. intros [].
  - exact (estimates_ok range res c0 c1 w cm Sane M0 M1 Hrange s e Is Ie).
  - exists fuel0. intros fuel O ntask Hf HO Hn Hab.
    destruct (plan_cases fuel O ntask 0 range res c0 c1 w cm sg eg Sane H2 Is Ie) as [[C ->]|(Ns & Ne & [[A ->]|(NA & Nv & ->)])].
    + exists None. split; [reflexivity|]. fold s e in C. tauto.
    + exists (Some [sg; eg]). split; [reflexivity|]. fold s e in A, Ns, Ne. split; [discriminate|]. tauto.
    + fold s e in Ns, Ne, NA. fold s. fold e.
      destruct (HF fuel O ntask true Hf HO Hn Hab) as (ok & path & E & D). pose proof E as E'. fold s e in E'. rewrite E.
      destruct (D [(vj s, fzero KF32)] (vj e)) as [[-> _]|[-> D']].
      * constructor; [|constructor]. split; [apply canon_in_map; exact Is|reflexivity].
      * apply canon_in_map. exact Ie.
      * destruct (found_path fuel O ntask 0 range res c0 c1 w cm s e false path Sane M0 M1 Hrange Is Ie HO E') as (l & El & L1 & L2 & L3).
        assert (RE : reachable range res c0 c1 w cm s e) by (exists l; auto). rewrite El.
        unfold makePlan. cbv zeta. fold s e. unfold read_joint_map. rewrite Is, Ie. cbn [bind].
        destruct (Z.eqb_spec (cm s) 100); [contradiction|]. destruct (Z.eqb_spec (cm e) 100); [contradiction|].
        destruct (in_map_int32 res e Hr Ie) as [I0 I1].
        destruct (move_cost_run c0 c1 w res cm s e Sane Is I0 I1) as (c & d & Ec & Ed & SH & P). rewrite Ed, Ec. cbn [bind].
        destruct (Bleb (euclid2 c0 c1 d) c); [eexists; split; [reflexivity|]; split; [discriminate|tauto]|]. cbn [tl].
        destruct (unwrap_run res ltac:(lia) l s s) as [l' (U & _)]; [split; exists 0; lia|]. rewrite U. cbn [bind].
        eexists. split; [reflexivity|]. split; [discriminate|tauto].
      * exists None. split; [reflexivity|]. split; [|reflexivity]. intros _. right. right. split; [exact NA|]. intros (l & L1 & L2).
        apply (D' (vj s) (fzero KF32) (map vj (s :: l))). split; [left; reflexivity|]. split; [reflexivity|]. split; [rewrite last_map, L2; reflexivity|].
        apply linked_back; auto.
Qed.

(** Whatever the schedule, the queue limit and a cancellation: a plan that is sent is either the direct move between two free configurations, or keeps the ends
    of the links clear of each other all the way (C79) and leads from the start to the goal. *)
Theorem C80_sent_plan_keeps_clear fuel O ntask limit range expand res c0 c1 w l0 l1 cm sg eg out :
  coef_ok c0 -> coef_ok c1 -> coef_ok w -> 2 <= res <= 1024 -> small_coef c0 -> small_coef c1 -> 0 <= range <= 2 ^ 30 -> fair_sched O ->
  1 <= expand -> joint_map res expand (cell_collides l0 l1 res) = Ok cm -> whole_gain l0 -> whole_gain l1 ->
  within_a_turn res sg -> within_a_turn res eg ->
  joint_plan fuel O ntask limit range res c0 c1 w cm sg eg = JDone (Some out) ->
  (out = [sg; eg] /\ accepted c0 c1 w res cm (metric2Grid res sg) (metric2Grid res eg) /\
     ((Rabs (Q2R (fst eg) - Q2R (fst sg)) < IZR res / 2 - 2)%R -> (Rabs (Q2R (snd eg) - Q2R (snd sg)) < IZR res / 2 - 2)%R ->
      clear_along res l0 l1 (rad res (16 / 10)) out)) \/
  (clear_along res l0 l1 (rad res (16 / 10)) out /\ hd_error out = Some sg /\
   (not_a_negative_tie (fst eg) -> not_a_negative_tie (snd eg) -> same_angle res (fst (last out sg)) (fst eg) /\ same_angle res (snd (last out sg)) (snd eg))).
Proof.
  intros Hc0 Hc1 Hw Hr M0 M1 Hrange HO Hx Hm G0 G1 Ws We E. assert (H2 : 2 <= res) by lia.
  assert (Sane : Joint2DProps.sane c0 c1 w res cm).
  { apply (the_sane c0 c1 w res expand (cell_collides l0 l1 res) cm Hc0 Hc1 Hw ltac:(lia) Hx Hm (periodic res l0 l1 Hr G0 G1)). }
  apply (within_in_map res _ ltac:(lia)) in Ws, We. set (s := metric2Grid res sg) in *. set (e := metric2Grid res eg) in *.
  destruct (plan_cases fuel O ntask limit range res c0 c1 w cm sg eg Sane H2 Ws We) as [[_ Q]|(Ns & Ne & [[A Q]|(NA & Nv & Q)])]; fold s e in Q; rewrite Q in E; [discriminate| |].
  - assert (out = [sg; eg]) by congruence. subst out. left. split; [reflexivity|]. fold s e in A. split; [exact A|]. intros B0 B1.
    apply (C79_direct_motion_keeps_clear c0 c1 w res expand l0 l1 cm sg eg None Hc0 Hc1 Hw Hr Hx Hm G0 G1); [|exact A|exact B0|exact B1].
    unfold makePlan. cbv zeta. fold s e. unfold read_joint_map. rewrite Ws, We. cbn [bind].
    fold s in Ns. fold e in Ne.
    destruct (Z.eqb_spec (cm s) 100); [contradiction|]. destruct (Z.eqb_spec (cm e) 100); [contradiction|].
    destruct (in_map_int32 res e ltac:(lia) We) as [I0 I1].
    destruct (move_cost_run c0 c1 w res cm s e Sane Ws I0 I1) as (c & d & Ec & Ed & SH & P). rewrite Ed, Ec. cbn [bind].
    destruct A as (c' & Ec' & Lc). assert (c' = c) by congruence. subst c'. destruct P as [(_ & _ & B)|(_ & B & _)]; [rewrite B; reflexivity|congruence].
  - right. fold s e in NA. destruct (search _ _ _ _ _ _ _ _ _ _ _ _) as [ok ab path| |] eqn:S in E; [|discriminate|discriminate].
    destruct ok; [|discriminate].
    destruct (found_path fuel O ntask limit range res c0 c1 w cm s e ab path Sane M0 M1 Hrange Ws We HO S) as (l & El & L1 & L2 & L3). rewrite El in E.
    destruct (makePlan res c0 c1 w cm sg eg (Some (s :: l))) as [r|] eqn:EP; [|discriminate]. assert (r = Some out) by congruence. subst r.
    assert (Acc : each_move (accepted c0 c1 w res cm) (s :: l)).
    { clear -L2. generalize dependent s. clear. intros s. revert s. induction l as [|q l IH]; intros p H; [exact I|]. destruct H as [H1 H2]. split; [apply H1|apply IH; exact H2]. }
    assert (K : exists u l', length (u :: l') = length l /\ out = sg :: add_to_last (map (grid2Metric res) (u :: l')) (residual res (fst eg), residual res (snd eg))).
    { unfold makePlan in EP. cbv zeta in EP. fold s e in EP. unfold read_joint_map in EP. rewrite Ws, We in EP. cbn [bind] in EP. fold s in Ns. fold e in Ne.
      destruct (Z.eqb_spec (cm s) 100); [contradiction|]. destruct (Z.eqb_spec (cm e) 100); [contradiction|].
      destruct (in_map_int32 res e ltac:(lia) We) as [I0 I1].
      destruct (move_cost_run c0 c1 w res cm s e Sane Ws I0 I1) as (c & d & Ec & Ed & SH & P). rewrite Ed, Ec in EP. cbn [bind] in EP.
      destruct P as [(_ & L & _)|(_ & _ & B)]; [exfalso; apply NA; exists c; auto|]. rewrite B in EP. cbn [tl] in EP.
      destruct (unwrap_run res ltac:(lia) l s s) as [l' (U & F & _)]; [split; exists 0; lia|]. rewrite U in EP. cbn [bind] in EP.
      apply F2_length in F. destruct l' as [|u l']; [|exists u, l'; split; [exact F|]; cbn [map add_to_last] in EP |- *; congruence].
      exfalso. destruct l; [|discriminate]. apply Nv. cbn [last] in L1. fold s. fold e. rewrite L1. reflexivity. }
    destruct K as (u & l' & Ll & Eo).
    assert (Nd : out <> [sg; eg]).
    { intros Q2. apply NA. rewrite Eo in Q2. destruct l' as [|u2 l']; [|exfalso; destruct l'; discriminate].
      destruct l as [|q [|q2 l]]; try discriminate. cbn [last] in L1. subst q. apply Acc. }
    split; [|split].
    + apply (C79_searched_motion_keeps_clear c0 c1 w res expand l0 l1 cm sg eg (s :: l) out Hc0 Hc1 Hw Hr Hx Hm G0 G1 EP Nd eq_refl L1); [|exact Acc].
      intros q Hq. apply (in_map_int32 res q ltac:(lia)). apply L3. exact Hq.
    + rewrite Eo. reflexivity.
    + intros T0 T1. destruct (C20_sent_angles_follow_the_found_path c0 c1 w res cm sg eg (s :: l) out Sane ltac:(lia) EP eq_refl L1 T0 T1) as [[_ A]|(_ & lu & _ & _ & _ & _ & _ & R)]; [contradiction|exact R].
Qed.
(** ** Examples *)
(** The links of C79 that meet in the middle: the search is needed and goes round. *)
Definition round_trip (O : oracle) : jplan := joint_plan 200 O 2 0 3 8 one32 one32 one32 (mark meet) from_w to_e.
Example round_trip_is_planned : exists a b, round_trip fifo_oracle = JDone (Some [from_w; a; b]).
Proof. eexists. eexists. vm_compute. reflexivity. Qed.
Lemma meet_sane : Joint2DProps.sane one32 one32 one32 8 (mark meet).
Proof. constructor; try exact one_ok; [lia|]. intros p _. unfold mark. destruct (meet p); lia. Qed.
Lemma one_small : small_coef one32.
Proof. unfold small_coef, one32. destruct (f32_of_Z_exact 1) as [_ E]; [lia|]. rewrite E. lra. Qed.
Lemma trip_within : within_a_turn 8 from_w /\ within_a_turn 8 to_e.
Proof.
  unfold within_a_turn, from_w, to_e. cbn [fst snd]. unfold inject_Z, Q2R. cbn [Qnum Qden]. rewrite Rinv_1. split; split; lra.
Qed.
Example planning_premises :
  Joint2DProps.sane one32 one32 one32 8 (mark meet) /\ small_coef one32 /\ within_a_turn 8 from_w /\ within_a_turn 8 to_e /\ @fair_sched f32 fifo_oracle /\
  joint_map 8 1 (cell_collides west east 8) = Ok (mark meet) /\ whole_gain west /\ whole_gain east.
Proof.
  split; [exact meet_sane|]. split; [exact one_small|]. split; [apply trip_within|]. split; [apply trip_within|]. split; [apply fifo_oracle_fair|].
  split; [apply demo_searched|]. split; [exists 1; reflexivity|exists (-1); reflexivity].
Qed.

(** A search that takes longer than replan_interval is cancelled and reported as an unreachable goal. *)
Theorem C80_refused_only_if_there_is_no_way_refuted :
  exists O range res c0 c1 w cm sg eg, fair_sched O /\ Joint2DProps.sane c0 c1 w res cm /\ within_a_turn res sg /\ within_a_turn res eg /\
    cm (metric2Grid res sg) <> 100 /\ cm (metric2Grid res eg) <> 100 /\ reachable range res c0 c1 w cm (metric2Grid res sg) (metric2Grid res eg) /\
    joint_plan 200 O 2 0 range res c0 c1 w cm sg eg = JDone None.
Proof.
  exists (mkOracle (fun _ l => Nat.pred (length l)) (fun _ _ => 0%nat) (fun _ cs => map (fun c => [c]) cs) (fun _ => true) (fun n => n)).
  exists 3, 8, one32, one32, one32, (mark meet), from_w, to_e.
  split; [intros loop cs; exact (fifo_oracle_fair loop cs)|]. split; [exact meet_sane|]. split; [apply trip_within|]. split; [apply trip_within|].
  split; [vm_compute; discriminate|]. split; [vm_compute; discriminate|]. split; [|vm_compute; reflexivity].
  exists [(8, 9); (9, 8)]. split; [|reflexivity].
  assert (K : forall p q, match move_cost 8 one32 one32 one32 (mark meet) p q with Ok c => Bltb c (B754_zero false) | UB => true end = false -> accepted one32 one32 one32 8 (mark meet) p q).
  { intros p q E. unfold accepted. destruct (move_cost _ _ _ _ _ _ _) as [c|]; [|discriminate E]. exists c. auto. }
  change (metric2Grid 8 from_w) with (7, 8).
  split; [|split; [|exact I]].
  - split; [exists 1, 1; cbn [fst snd]; split; [lia|]; split; [lia|]; split; exists 0; lia|]. split; [reflexivity|]. apply K. vm_compute. reflexivity.
  - split; [exists 1, (-1); cbn [fst snd]; split; [lia|]; split; [lia|]; split; exists 0; lia|]. split; [reflexivity|]. apply K. vm_compute. reflexivity.
Qed.

Print Assumptions C80_planning_is_defined.
Print Assumptions C80_refused_exactly_if_there_is_no_way.
Print Assumptions C80_sent_plan_keeps_clear.
Print Assumptions C80_refused_only_if_there_is_no_way_refuted.
