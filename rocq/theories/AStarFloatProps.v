(** C08 in IEEE binary32, the arithmetic of the code (grid_astar.h computes costs in [float]). *)
From Coq Require Import ZifyBool ZifyNat Reals Lra.
From Flocq Require Import Core.Core Core.Raux IEEE754.BinarySingleNaN.
From Verif Require Import Common CyclicVecSpec GridMapSpec CostAlg FloatLib CostF32
  AStar AStarSpec AStarProofs AStarSearch AStarTerm AStarComplete AStarProps.
Local Open Scope Z_scope.

(** The same in IEEE binary32, the arithmetic of the code: nothing is lost to rounding or
    overflow as long as the starts cost at most 2^127 and no move more than 2^102. *)
Definition f32_cost (k : Z) (a : f32) : Prop := is_finite a = true /\ (0 <= B2R a <= bpow radix2 k)%R.

Lemma f32_cost_lt_max a : f32_cost 127 a -> fltb KF32 a (fmax KF32) = true.
Proof.
  intros (Fa & H1 & H2). cbn [fltb fmax KF32]. apply ltb_true.
  assert (FM : is_finite (@Bmax_float 24 128 p32 e32) = true) by reflexivity.
  split; [destruct a; try reflexivity; discriminate|]. split; [reflexivity|].
  rewrite (finite_key 24 128 a Fa), (finite_key 24 128 _ FM).
  assert (E : B2R (@Bmax_float 24 128 p32 e32) = (IZR 16777215 * bpow radix2 104)%R).
  { unfold Bmax_float. rewrite B2R_SF2B. cbv [SF2R cond_Zopp F2R Fnum Fexp]. reflexivity. }
  rewrite E. apply (Rle_lt_trans _ _ _ H2). change 127%Z with (23 + 104)%Z. rewrite bpow_plus.
  assert (H24 : (bpow radix2 23 = 8388608)%R) by reflexivity. rewrite H24.
  pose proof (bpow_gt_0 radix2 104). lra.
Qed.
Lemma f32_cost_add a c : f32_cost 127 a -> f32_cost 102 c -> f32_cost 127 (fadd KF32 a c).
Proof.
  intros (Fa & A1 & A2) (Fc & C1 & C2). cbn [fadd KF32].
  destruct (plus_key 24 128 p32 e32 a c Fa Fc) as [N E].
  rewrite (finite_key 24 128 a Fa), (finite_key 24 128 c Fc) in E.
  set (r := Generic_fmt.round radix2 (SpecFloat.fexp 24 128) ZnearestE (B2R a + B2R c)) in E.
  assert (Hr : (0 <= r <= bpow radix2 127)%R).
  { split.
    - rewrite <- (rnd_0 24 128). apply (rnd_mono 24 128 p32). lra.
    - assert (G : generic_format radix2 (SpecFloat.fexp 24 128) (bpow radix2 127)).
      { apply generic_format_bpow. vm_compute. discriminate. }
      apply round_N_le_midp; [apply (fexp_correct 24 128 p32)|exact G|].
      rewrite succ_eq_pos by apply bpow_ge_0. rewrite ulp_bpow.
      change (SpecFloat.fexp 24 128 (127 + 1)) with (102 + 2)%Z. rewrite (bpow_plus radix2 102 2).
      change (bpow radix2 2) with 4%R. pose proof (bpow_gt_0 radix2 102). lra. }
  assert (HM : (bpow radix2 127 < bpow radix2 128)%R) by (apply bpow_lt; lia).
  rewrite clampM_id in E by lra.
  assert (FR : is_finite (Bplus (prec_gt_0_ := p32) (prec_lt_emax_ := e32) mode_NE a c) = true).
  { apply (finite_iff 24 128 _ N). rewrite E. lra. }
  split; [exact FR|]. rewrite <- (finite_key 24 128 _ FR), E. exact Hr.
Qed.

Theorem C08_float32_search_decides_reachability nc size M sts en :
  well_typed nc size M sts en ->
  Forall (fun s => f32_cost 127 (snd s)) sts ->
  (forall ss e p q, wrapped_starts nc size sts ss -> canon unsigned_range nc en size e ->
     valid size p -> move KF32 nc size M ss e p q -> f32_cost 102 (m_cost M p q ss e)) ->
  Forall (fun s => fst s <> en) sts ->
  (forall ss, wrapped_starts nc size sts ss -> NoDup (map fst ss)) ->
  (forall s s' e, In s sts -> canon unsigned_range nc (fst s) size s' -> canon unsigned_range nc en size e ->
     valid size s' /\ fltb KF32 (m_costEstim M s' e) (fzero KF32) = false /\
     exists ce, ftrunc KF32 (m_costEstim M s' e) = Ok ce) ->
  exists fuel0, forall fuel O ntask rb, (fuel0 <= fuel)%nat -> fair_sched O -> (1 <= ntask)%nat ->
    (forall n, o_abort O n = false) ->
    exists ok path, search KF32 nc size M fuel O ntask 0 (fzero KF32) sts en rb = SDone ok false path /\
      forall ss e, wrapped_starts nc size sts ss -> canon unsigned_range nc en size e ->
        (ok = true /\ exists s c, route KF32 nc size M ss e s c e path) \/
        (ok = false /\ forall s c l, ~ route KF32 nc size M ss e s c e l).
Proof.
  intros HT H0 HC Hne HND HV. apply (decides_small KF32 KF32_laws KF32_leave nc size M sts en (f32_cost 127)); auto.
  - exact f32_cost_lt_max.
  - split; [reflexivity|]. cbn [fzero KF32 B2R]. split; [lra|apply bpow_ge_0].
  - intros ss e a p q HW HE Ha Hv Hm. apply f32_cost_add; [exact Ha|]. exact (HC ss e p q HW HE Hv Hm).
  - eapply Forall_impl; [|exact H0]. intros a (A & B & C). split; [|split; auto].
    cbn [fleb fzero KF32]. apply leb_true. split; [reflexivity|]. split; [destruct (snd a); try reflexivity; discriminate|].
    rewrite (finite_key 24 128 _ A). change (key (B754_zero false)) with 0%R. exact B.
Qed.

Theorem C08_float32_failure_means_unreachable nc size M sts en fuel O ntask cl rb ab path :
  well_typed nc size M sts en -> fair_sched O -> (1 <= ntask)%nat -> (forall n, o_abort O n = false) ->
  Forall (fun s => f32_cost 127 (snd s)) sts ->
  (forall ss e p q, wrapped_starts nc size sts ss -> canon unsigned_range nc en size e ->
     valid size p -> move KF32 nc size M ss e p q -> f32_cost 102 (m_cost M p q ss e)) ->
  Forall (fun s => fst s <> en) sts ->
  search KF32 nc size M fuel O ntask 0 cl sts en rb = SDone false ab path ->
  forall ss e, wrapped_starts nc size sts ss -> canon unsigned_range nc en size e ->
    forall s c l, ~ route KF32 nc size M ss e s c e l.
Proof.
  intros HT HO Hn Hab H0 HC Hne E.
  apply (search_complete_small KF32 KF32_laws nc size M sts en (f32_cost 127) fuel O ntask cl rb false ab path); auto.
  - exact f32_cost_lt_max.
  - split; [reflexivity|]. cbn [fzero KF32 B2R]. split; [lra|apply bpow_ge_0].
  - intros ss e a p q HW HE Ha Hv Hm. apply f32_cost_add; [exact Ha|]. exact (HC ss e p q HW HE Hv Hm).
  - eapply Forall_impl; [|exact H0]. intros a (A & B & C). split; [|split; auto].
    cbn [fleb fzero KF32]. apply leb_true. split; [reflexivity|]. split; [destruct (snd a); try reflexivity; discriminate|].
    rewrite (finite_key 24 128 _ A). change (key (B754_zero false)) with 0%R. exact B.
Qed.

(** ** The premises hold on a concrete graph, and without the bound on the costs the claim is false *)
Definition b102 : f32 := @B754_finite 24 128 false 8388608 79 eq_refl.
Lemma f32_cost_102 a : fleb KF32 (fzero KF32) a = true -> fleb KF32 a b102 = true -> f32_cost 102 a.
Proof.
  cbn [fleb fzero KF32]. intros H1 H2. apply leb_true in H1, H2. destruct H1 as (_ & N & H1), H2 as (_ & _ & H2).
  change (key (B754_zero false)) with 0%R in H1.
  assert (E : key b102 = bpow radix2 102).
  { change (key b102) with (F2R (Float radix2 8388608 79)). unfold F2R. cbn [Fnum Fexp].
    change (IZR 8388608) with (bpow radix2 23). rewrite <- bpow_plus. reflexivity. }
  rewrite E in H2. assert (HM : (bpow radix2 102 < bpow radix2 128)%R) by (apply bpow_lt; lia).
  pose proof (bpow_gt_0 radix2 128).
  assert (FA : is_finite a = true) by (apply (finite_iff 24 128 a N); lra).
  rewrite (finite_key 24 128 a FA) in H1, H2. split; [exact FA|lra].
Qed.
Definition g_short : list (Z * Z * Z) := [(0,1,1); (0,2,6); (1,2,1); (4,0,1)].
Lemma f32_graph_typed es sts en : Forall (fun s => length (fst s) = 1%nat) sts -> length en = 1%nat ->
  well_typed (F := f32) 1 [5] (f32_graph es) sts en.
Proof.
  intros H1 H2. split; [simpl; lia|]. split; [repeat constructor; lia|]. split; [exact H2|]. split; [exact H1|].
  intros p ss e d Hd. cbn [m_searchGrids f32_graph map] in Hd.
  repeat destruct Hd as [<-|Hd]; try (split; [reflexivity|repeat constructor; lia]). destruct Hd.
Qed.
(** The goal 4 has no edge into it: the search says so, and the theorem applies. *)
Example float32_decides_premises :
  well_typed (F := f32) 1 [5] (f32_graph g_short) [([0], f32_of_Z 3)] [4] /\
  Forall (fun s => f32_cost 127 (snd s)) [([0], f32_of_Z 3) : vec * f32] /\
  (forall ss e p q, move KF32 1 [5] (f32_graph g_short) ss e p q -> f32_cost 102 (m_cost (f32_graph g_short) p q ss e)) /\
  search KF32 1 [5] (f32_graph g_short) 50 fifo_oracle 2 0 (fzero KF32) [([0], f32_of_Z 3)] [4] false = SDone false false [].
Proof.
  split; [apply f32_graph_typed; repeat constructor|]. split; [|split].
  - constructor; [|constructor]. destruct (f32_cost_102 (f32_of_Z 3)) as (A & B & C); [vm_compute; reflexivity|vm_compute; reflexivity|].
    split; [exact A|]. split; [exact B|]. apply (Rle_trans _ _ _ C). apply bpow_le. lia.
  - intros ss e p q (_ & _ & _ & _ & Hc). cbn [m_cost f32_graph] in *. unfold edge_cost in *.
    destruct (find _ g_short) as [[[x y] w]|] eqn:Ef.
    + apply find_some in Ef. destruct Ef as [Hin _]. clear Hc.
      repeat destruct Hin as [Hin|Hin]; try (injection Hin as <- <- <-; cbn [snd]; apply f32_cost_102; vm_compute; reflexivity).
      destruct Hin.
    + exfalso. vm_compute in Hc. discriminate.
  - vm_compute. reflexivity.
Qed.

(** Two edges of 2^127 each, both accepted: their sum is infinite, and a goal that can be reached is reported as unreachable. *)
Definition g_huge : list (Z * Z * Z) := [(0,1, 2 ^ 127); (1,4, 2 ^ 127)].
Lemma f32_graph_move es ss e a b c : edge_cost es [a] [b] = Some c ->
  fltb KF32 (f32_of_Z c) (fzero KF32) = false -> feqb KF32 (f32_of_Z c) (fmax KF32) = false ->
  0 <= a < 5 -> 0 <= b < 5 -> a <> b -> move KF32 1 [5] (f32_graph es) ss e [a] [b].
Proof.
  intros E1 H1 H2 Ha Hb N. split; [|split; [|split]].
  - exists [b - a]. split; [|apply canon_nc1; lia]. cbn [m_searchGrids f32_graph map In].
    assert (b - a = -4 \/ b - a = -3 \/ b - a = -2 \/ b - a = -1 \/ b - a = 1 \/ b - a = 2 \/ b - a = 3 \/ b - a = 4) by lia.
    intuition congruence.
  - repeat constructor; lia.
  - split; vm_compute; reflexivity.
  - unfold admissible_value. cbn [m_cost f32_graph]. rewrite E1. split; assumption.
Qed.
Theorem C08_float32_huge_costs_refuted :
  exists M (sts : list (vec * f32)) en path,
    well_typed 1 [5] M sts en /\ Forall (fun s => f32_cost 127 (snd s)) sts /\
    route KF32 1 [5] M sts en [0] (fzero KF32) en path /\
    search KF32 1 [5] M 50 fifo_oracle 1 0 (fzero KF32) sts en false = SDone false false [].
Proof.
  exists (f32_graph g_huge), [([0], fzero KF32)], [4], [[0]; [1]; [4]].
  split; [apply f32_graph_typed; repeat constructor|]. split; [|split].
  - constructor; [|constructor]. split; [reflexivity|]. cbn [fzero KF32 B2R snd]. split; [lra|apply bpow_ge_0].
  - split; [left; reflexivity|]. split; [reflexivity|]. split; [reflexivity|]. cbn [linked]. split; [|split; [|exact I]].
    + apply (f32_graph_move g_huge _ _ 0 1 (2 ^ 127)); [reflexivity|vm_compute; reflexivity|vm_compute; reflexivity|lia|lia|lia].
    + apply (f32_graph_move g_huge _ _ 1 4 (2 ^ 127)); [reflexivity|vm_compute; reflexivity|vm_compute; reflexivity|lia|lia|lia].
  - vm_compute. reflexivity.
Qed.

Print Assumptions C08_float32_search_decides_reachability.
Print Assumptions C08_float32_failure_means_unreachable.
Print Assumptions C08_float32_huge_costs_refuted.
