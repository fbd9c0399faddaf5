(** C20: what the 2-DoF joint planner checks for collision, and what it sends to the joints. *)
From Coq Require Import Reals Lra Psatz ZifyBool QArith Qround Qabs Qreals.
From Flocq Require Import Core.Core Core.Raux IEEE754.BinarySingleNaN.
From Verif Require Import Common CyclicVec CyclicVecSpec CyclicVecProofs CostAlg CostF32 FloatLib MotionCache Motion3DProofs SafetyLimiter BbfFloat Joint2D Joint2DProofs.
Local Open Scope Z_scope.

(** *** Specification *)
(** [d] is the way from [cur] to [next] modulo full turns ([res] cells) that is at most half a turn in both joints. *)
Definition shortest_way (res : Z) (cur next d : jcell) : Prop :=
  same_direction res (fst d) (fst next - fst cur) /\ same_direction res (snd d) (snd next - snd cur) /\ signed_range res (fst d) /\ signed_range res (snd d).
(** A configuration is free if the map has a cost below 100 at its cell, taken modulo full turns. *)
Definition free (res : Z) (cm : jcell -> Z) (p : jcell) : Prop := cm (fst p mod res, snd p mod res) <= 99.
(** Neighbouring cells, corners included. *)
Definition adjacent (p q : jcell) : Prop := Z.abs (fst q - fst p) <= 1 /\ Z.abs (snd q - snd p) <= 1.
(** A list of cells that follows the straight segment from [cur] to [cur + d]: it starts at [cur], every cell is within 0.6 cells (per joint) of a
    point of the segment, neighbours in the list are neighbours on the grid, and the last one is a neighbour of the end. *)
Definition follows (cur d : jcell) (l : list jcell) : Prop :=
  (forall i p, nth_error l i = Some p -> exists t, (0 <= t <= 1)%R /\
     (Rabs (IZR (fst p) - (IZR (fst cur) + t * IZR (fst d))) <= 6 / 10)%R /\ (Rabs (IZR (snd p) - (IZR (snd cur) + t * IZR (snd d))) <= 6 / 10)%R) /\
  (forall i p q, nth_error l i = Some p -> nth_error l (S i) = Some q -> adjacent p q) /\
  (d <> (0, 0) -> hd_error l = Some cur /\ adjacent (last l cur) (fst cur + fst d, snd cur + snd d)).
Record sane (c0 c1 w : f32) (res : Z) (cm : jcell -> Z) : Prop := {
  sane_c0 : coef_ok c0; sane_c1 : coef_ok c1; sane_w : coef_ok w;
  sane_res : 1 <= res <= 1024; sane_cm : forall p, in_joint_map res p = true -> 0 <= cm p }.

Lemma shortest_small res cur next d : 1 <= res <= 1024 -> shortest_way res cur next d -> Z.abs (fst d) <= 512 /\ Z.abs (snd d) <= 512.
Proof.
  intros H (_ & _ & R1 & R2). unfold signed_range in *. assert ((res + 1) / 2 < 513) by (apply Z.div_lt_upper_bound; lia).
  assert (res / 2 <= 512) by (apply Z.div_le_upper_bound; lia). lia.
Qed.
Lemma shortest_unique res cur next d d' : 0 < res -> shortest_way res cur next d -> cycle2 res (fst next - fst cur, snd next - snd cur) = Ok d' -> res mod 2 = 0 -> d' = d.
Proof.
  intros H (A & B & C & D) E O. destruct (cycle2_unique res (fst next - fst cur, snd next - snd cur) d H A B C D) as [E'|O']; [congruence|lia].
Qed.

Lemma last_nth {A} (l : list A) a b : l <> [] -> nth_error l (length l - 1) = Some b -> last l a = b.
Proof.
  induction l as [|x l IH]; [congruence|]. intros _ H. destruct l as [|y l]; [cbn in *; congruence|].
  change (last (x :: y :: l) a) with (last (y :: l) a). apply IH; [discriminate|]. cbn [length] in *. replace (S (S (length l)) - 1)%nat with (S (length l)) in H by lia.
  cbn [nth_error] in H. replace (S (length l) - 1)%nat with (length l) by lia. exact H.
Qed.

(** C20: the cells that are checked for a move follow the straight segment without gaps, in binary32 arithmetic, for all resolutions up to 1024. *)
Theorem C20_samples_follow_the_segment res cur d :
  1 <= res <= 1024 -> in_joint_map res cur = true -> signed_range res (fst d) -> signed_range res (snd d) ->
  follows cur d (sample_cells cur d).
Proof.
  intros Hr Hc R0 R1.
  assert (D : Z.abs (fst d) <= 512 /\ Z.abs (snd d) <= 512).
  { unfold signed_range in *. assert ((res + 1) / 2 < 513) by (apply Z.div_lt_upper_bound; lia). assert (res / 2 <= 512) by (apply Z.div_le_upper_bound; lia). lia. }
  destruct D as [D0 D1]. destruct (travel_facts d D0 D1) as (T & T0 & T1).
  assert (C0 : 0 <= fst cur < 2048) by (unfold in_joint_map in Hc; lia). assert (C1 : 0 <= snd cur < 2048) by (unfold in_joint_map in Hc; lia).
  unfold sample_cells. set (n := travel d) in *. set (dp0 := div32 (f32_of_Z (fst d)) (f32_of_Z n)). set (dp1 := div32 (f32_of_Z (snd d)) (f32_of_Z n)).
  set (l := samples (Z.to_nat n) (f32_of_Z (fst cur)) (f32_of_Z (snd cur)) dp0 dp1).
  assert (Ln : length l = Z.to_nat n) by apply samples_length.
  assert (Nth : forall i p, nth_error l i = Some p -> (i < Z.to_nat n)%nat /\ p = (lround32 (axis i (f32_of_Z (fst cur)) dp0), lround32 (axis i (f32_of_Z (snd cur)) dp1))).
  { intros i p E. assert (I : (i < Z.to_nat n)%nat) by (rewrite <- Ln; apply nth_error_Some; congruence). split; [exact I|].
    unfold l in E. rewrite (samples_nth (Z.to_nat n) _ _ _ _ i I) in E. congruence. }
  split; [|split].
  - intros i p E. apply Nth in E. destruct E as [I ->]. cbn [fst snd].
    assert (N1 : 1 <= n <= 724) by lia.
    pose proof (axis_close (fst cur) (fst d) n C0 D0 T0 N1 i ltac:(lia)) as A0. pose proof (axis_close (snd cur) (snd d) n C1 D1 T1 N1 i ltac:(lia)) as A1.
    fold dp0 in A0. fold dp1 in A1. unfold ideal in A0, A1.
    assert (Nr : (1 <= IZR n)%R) by (apply IZR_le; lia).
    exists (IZR (Z.of_nat i) / IZR n)%R. split; [apply quot_between; [lra|]; assert (0 <= IZR (Z.of_nat i) <= IZR n)%R by (split; apply IZR_le; lia); lra|].
    replace (IZR (Z.of_nat i) / IZR n * IZR (fst d))%R with (IZR (Z.of_nat i) * (IZR (fst d) / IZR n))%R by (field; lra).
    replace (IZR (Z.of_nat i) / IZR n * IZR (snd d))%R with (IZR (Z.of_nat i) * (IZR (snd d) / IZR n))%R by (field; lra). auto.
  - intros i p q Ep Eq. apply Nth in Ep. apply Nth in Eq. destruct Ep as [I ->], Eq as [I' ->]. unfold adjacent. cbn [fst snd].
    assert (N1 : 1 <= n <= 724) by lia.
    split; [apply (axis_step (fst cur) (fst d) n C0 D0 T0 N1 i)|apply (axis_step (snd cur) (snd d) n C1 D1 T1 N1 i)]; lia.
  - intros Nz. assert (N1 : 1 <= n <= 724). { split; [|lia]. destruct (Z.eq_dec n 0) as [Z0|Z0]; [|lia]. exfalso. apply Nz. apply travel_zero; [exact D0|exact D1|exact Z0]. }
    split.
    + assert (H0 : nth_error l 0 = Some (lround32 (f32_of_Z (fst cur)), lround32 (f32_of_Z (snd cur)))) by (apply samples_nth; lia).
      destruct l as [|a l']; [discriminate|]. cbn [nth_error hd_error] in *. rewrite H0. f_equal.
      pose proof (axis_first (fst cur) (fst d) n C0) as A. pose proof (axis_first (snd cur) (snd d) n C1) as B. cbn [axis] in A, B. rewrite A, B. destruct cur; reflexivity.
    + assert (HL : nth_error l (length l - 1) = Some (lround32 (axis (Z.to_nat (n - 1)) (f32_of_Z (fst cur)) dp0), lround32 (axis (Z.to_nat (n - 1)) (f32_of_Z (snd cur)) dp1))).
      { rewrite Ln. replace (Z.to_nat n - 1)%nat with (Z.to_nat (n - 1)) by lia. apply samples_nth. lia. }
      rewrite (last_nth l cur _ (fun E : l = [] => ltac:(rewrite E in Ln; cbn in Ln; lia)) HL).
      unfold adjacent. cbn [fst snd].
      pose proof (axis_last (fst cur) (fst d) n C0 D0 T0 N1) as A. pose proof (axis_last (snd cur) (snd d) n C1 D1 T1 N1) as B. fold dp0 in A. fold dp1 in B. lia.
Qed.

Lemma move_cost_run c0 c1 w res cm cur next : sane c0 c1 w res cm -> in_joint_map res cur = true -> int32 (fst next) -> int32 (snd next) ->
  exists c d, move_cost res c0 c1 w cm cur next = Ok c /\ cycle2 res (fst next - fst cur, snd next - snd cur) = Ok d /\ shortest_way res cur next d /\
    ((in_joint_map res next = true /\ (forall p, In p (sample_cells cur d) -> free res cm p)) /\
       Bltb c (B754_zero false) = false /\ Bleb (euclid2 c0 c1 d) c = true \/
     ~ (in_joint_map res next = true /\ (forall p, In p (sample_cells cur d) -> free res cm p)) /\
       Bltb c (B754_zero false) = true /\ Bleb (euclid2 c0 c1 d) c = false).
Proof.
  intros [S0 S1 Sw Sr Sc] Hc N0 N1. unfold move_cost.
  destruct (cycle2_run res (fst next - fst cur, snd next - snd cur) ltac:(lia)) as [d (E & A & B & C & D)]. cbn [fst snd] in A, B.
  assert (SH : shortest_way res cur next d) by (split; [exact A|]; split; [exact B|]; split; assumption).
  destruct (shortest_small res cur next d Sr SH) as [D0 D1]. destruct (euclid2_real c0 c1 d S0 S1 D0 D1) as [Fe Ee].
  destruct zero32 as [Fz Ez]. destruct (f32_of_Z_exact (-1)) as [Fn En]; [lia|].
  assert (Neg : Bltb (f32_of_Z (-1)) (B754_zero false) = true /\ Bleb (euclid2 c0 c1 d) (f32_of_Z (-1)) = false).
  { split; [apply finite_ltb; [assumption|assumption|]; rewrite En, Ez; lra|]. apply not_true_is_false. intros L. apply finite_leb in L; [|assumption|assumption]. rewrite En in L. lra. }
  assert (U : (to_u32 (2 * res) <=? to_u32 (fst next)) || (to_u32 (2 * res) <=? to_u32 (snd next)) = negb (in_joint_map res next)).
  { assert (UU : forall z, int32 z -> to_u32 z = if z <? 0 then z + 2 ^ 32 else z).
    { intros z [Z1 Z2]. unfold to_u32. destruct (Z.ltb_spec z 0) as [L|L]; [|apply Z.mod_small; lia].
      rewrite <- (Z.mod_small (z + 2 ^ 32) (2 ^ 32)) by lia. rewrite <- (Z.mod_add z 1 (2 ^ 32)) by lia. f_equal; lia. }
    assert (R : to_u32 (2 * res) = 2 * res) by (unfold to_u32; apply Z.mod_small; lia).
    rewrite R, (UU _ N0), (UU _ N1). unfold in_joint_map, int32 in *. destruct (Z.ltb_spec (fst next) 0), (Z.ltb_spec (snd next) 0); lia. }
  rewrite U. destruct (in_joint_map res next) eqn:I; cbn [negb].
  - rewrite E. cbn [bind].
    destruct (check_samples_run res cm ltac:(lia) (fun p => Sc _ (wrapped_in_map res p ltac:(lia))) (sample_cells cur d) 0 ltac:(lia)) as [r [Er P]].
    rewrite Er. cbn [bind]. destruct r as [s|].
    + destruct P as [Fr Bs]. exists (add_weighted (euclid2 c0 c1 d) s w), d. split; [reflexivity|]. split; [reflexivity|]. split; [exact SH|]. left.
      split; [split; [reflexivity|exact Fr]|].
      assert (Ls : (length (sample_cells cur d) <= 724)%nat).
      { unfold sample_cells. rewrite samples_length. destruct (travel_facts d D0 D1) as (T & _ & _). lia. }
      destruct (add_weighted_real (euclid2 c0 c1 d) s w Fe Ee ltac:(lia) Sw) as [Fa Ha]. split.
      * apply not_true_is_false. intros L. apply finite_ltb in L; [|exact Fa|exact Fz]. rewrite Ez in L. lra.
      * apply finite_leb; assumption.
    + destruct P as [q [Iq Hq]]. exists (f32_of_Z (-1)), d. split; [reflexivity|]. split; [reflexivity|]. split; [exact SH|]. right. split; [|exact Neg].
      intros [_ X]. specialize (X q Iq). unfold free in X. unfold wrapped in Hq. lia.
  - exists (f32_of_Z (-1)), d. split; [reflexivity|]. split; [exact E|]. split; [exact SH|]. right. split; [|exact Neg]. intros [X _]. discriminate X.
Qed.

(** C20: a move has a non-negative cost (is accepted by the search) exactly if its target is in the map and every checked cell is free. *)
Theorem C20_move_is_accepted_iff_samples_are_free c0 c1 w res cm cur next :
  sane c0 c1 w res cm -> in_joint_map res cur = true -> int32 (fst next) -> int32 (snd next) ->
  exists c d, move_cost res c0 c1 w cm cur next = Ok c /\ shortest_way res cur next d /\
    (Bltb c (B754_zero false) = false <-> in_joint_map res next = true /\ (forall p, In p (sample_cells cur d) -> free res cm p)).
Proof.
  intros H Hc N0 N1. destruct (move_cost_run c0 c1 w res cm cur next H Hc N0 N1) as (c & d & E & _ & SH & P). exists c, d. split; [exact E|]. split; [exact SH|].
  destruct P as [[P [L _]]|[P [L _]]]; rewrite L; [tauto|]. split; [discriminate|]. intros Q. contradiction.
Qed.

(** C20: the collision map.  For an expansion of at least one cell, a cell has cost 100 exactly if its configuration collides, and otherwise the largest
    falloff of a colliding cell of the map within the expansion range (0 if there is none). *)
Theorem C20_collision_map_marks_collisions res range collide : 1 <= range ->
  exists cm, joint_map res range collide = Ok cm /\ forall p, in_joint_map res p = true ->
    (cm p = 100 <-> collide p = true) /\
    (forall q, in_joint_map res q = true -> collide q = true -> apart q p <= range -> 100 * (range - apart q p) / range <= cm p) /\
    (cm p = 0 \/ exists q, in_joint_map res q = true /\ collide q = true /\ apart q p <= range /\ cm p = 100 * (range - apart q p) / range).
Proof.
  intros Hr. destruct (joint_map_run res range Hr collide) as [cm [E I]]. exists cm. split; [exact E|]. intros p Hp. split; [apply (map_inv_100 res range Hr collide _ _ _ I)|].
  destruct I as (A & B & C). split.
  - intros q Q1 Q2 Q3. exact (B q p (proj1 (in_joint_cells res q) Q1) Q1 Q2 Q3 Hp).
  - destruct (C p) as [X|(q & Q1 & Q2 & Q3 & _ & Q5)].
    + unfold mark in X. destruct (collide p) eqn:Cp; [|left; exact X]. right. exists p. split; [exact Hp|]. split; [exact Cp|].
      assert (Z0 : apart p p = 0) by (unfold apart; rewrite !Z.sub_diag; reflexivity). rewrite Z0. split; [lia|]. rewrite X, Z.sub_0_r. symmetry. apply Z.div_mul. lia.
    + right. exists q. auto.
Qed.
(** C20, refuted: an expansion of zero cells (parameter [expand] below half a cell) is undefined as soon as any configuration collides. *)
Theorem C20_zero_expansion_is_defined_refuted res collide : 0 < res -> (exists p, in_joint_map res p = true /\ collide p = true) -> joint_map res 0 collide = UB.
Proof.
  intros Hr [p [Ip Cp]]. unfold joint_map. apply in_joint_cells in Ip. assert (S : forall q, In q (joint_cells res) -> in_joint_map res q = true) by (intros q; apply in_joint_cells).
  assert (G : forall l, incl l (joint_cells res) -> In p l -> foldM (expand_cell res 0) l (mark collide) = UB).
  { induction l as [|q l IH]; intros Il I; [destruct I|]. cbn [foldM]. unfold expand_cell at 1, mark at 1. destruct (collide q) eqn:Cq.
    - change (100 =? 100) with true. cbv iota. change (square 0) with [(0, 0)]. cbn [foldM]. unfold raise_at. cbn [fst snd].
      rewrite !Z.add_0_r. replace (fst q, snd q) with q by (destruct q; reflexivity).
      match goal with |- context [in_joint_map res ?x] => assert (J : in_joint_map res x = true) by (destruct q; apply S, Il; left; reflexivity); rewrite J end.
      reflexivity.
    - change (0 =? 100) with false. cbv iota. cbn [bind]. apply IH; [intros a Ia; apply Il; right; exact Ia|]. destruct I as [->|I]; [congruence|exact I]. }
  apply G; [apply incl_refl|exact Ip].
Qed.
(** C20, refuted: the expansion does not go around the end of the map although the collision check reads the map modulo full turns: right beside a
    colliding configuration (joint 0 one cell below a full turn) the checked cost is that of free space, while the same configuration one turn further
    has the expanded cost. *)
Definition seam_collide (c : jcell) : bool := fst c mod 8 =? 7.
Theorem C20_expansion_is_cyclic_refuted : exists cm, joint_map 8 2 seam_collide = Ok cm /\
  (forall c, seam_collide c = seam_collide (fst c mod 8, snd c mod 8)) /\ seam_collide (-1, 3) = true /\
  cm (0, 3) = 0 /\ cm (8, 3) = 50.
Proof.
  destruct (joint_map_run 8 2 ltac:(lia) seam_collide) as [cm [E I]]. exists cm. split; [exact E|]. split.
  - intros c. unfold seam_collide. cbn [fst]. rewrite Z.mod_mod by lia. reflexivity.
  - split; [reflexivity|].
    assert (R : match joint_map 8 2 seam_collide with Ok m => (m (0, 3), m (8, 3)) | UB => (7, 7) end = (0, 50)) by (vm_compute; reflexivity).
    rewrite E in R. injection R as R1 R2. auto.
Qed.

(** *** Paths *)
Definition accepted (c0 c1 w : f32) (res : Z) (cm : jcell -> Z) (p q : jcell) : Prop :=
  exists c, move_cost res c0 c1 w cm p q = Ok c /\ Bltb c (B754_zero false) = false.
(** Every move of a path satisfies [R]. *)
Fixpoint each_move {A} (R : A -> A -> Prop) (l : list A) : Prop :=
  match l with
  | p :: (q :: _) as t => R p q /\ each_move R t
  | _ => True
  end.
Definition checked_move (res : Z) (collide : jcell -> bool) (p q : jcell) : Prop :=
  exists d cells, shortest_way res p q d /\ follows p d cells /\ forall c, In c cells -> collide (fst c mod res, snd c mod res) = false.

Lemma last_default {A} (a : A) l x y : last (a :: l) x = last (a :: l) y.
Proof. revert a. induction l as [|b l IH]; intros a; [reflexivity|]. exact (IH b). Qed.
Section Plan.
  Variables (c0 c1 w : f32) (res range : Z) (collide : jcell -> bool) (cm : jcell -> Z).
  Hypothesis Hc0 : coef_ok c0.
  Hypothesis Hc1 : coef_ok c1.
  Hypothesis Hw : coef_ok w.
  Hypothesis Hres : 1 <= res <= 1024.
  Hypothesis Hrange : 1 <= range.
  Hypothesis Hmap : joint_map res range collide = Ok cm.
  Hypothesis Periodic : forall p, in_joint_map res p = true -> collide p = collide (fst p mod res, snd p mod res).

  Lemma the_map : map_inv res range collide (joint_cells res) cm.
  Proof. destruct (joint_map_run res range Hrange collide) as [m [E I]]. rewrite Hmap in E. injection E as <-. exact I. Qed.
  Lemma the_sane : sane c0 c1 w res cm.
  Proof.
    constructor; try assumption. intros p _. destruct the_map as (A & _ & _). specialize (A p). unfold mark in A. destruct (collide p); lia.
  Qed.
  Lemma free_iff p : free res cm p <-> collide (fst p mod res, snd p mod res) = false.
  Proof.
    unfold free. pose proof (map_inv_100 res range Hrange collide _ _ (fst p mod res, snd p mod res) the_map) as H. destruct the_map as (_ & _ & C).
    assert (B : cm (fst p mod res, snd p mod res) <= 100).
    { destruct (C (fst p mod res, snd p mod res)) as [X|(q & _ & _ & _ & _ & X)]; rewrite X; [unfold mark; destruct (collide _); lia|apply fall_le; exact Hrange]. }
    set (x := (fst p mod res, snd p mod res)) in *. clearbody x.
    destruct (collide x).
    - split; [|discriminate]. intros L. assert (cm x = 100) by (apply H; reflexivity). lia.
    - split; [reflexivity|]. intros _. assert (cm x <> 100) by (intros Q; apply H in Q; discriminate). lia.
  Qed.
  Lemma accepted_checked p q : in_joint_map res p = true -> int32 (fst q) -> int32 (snd q) -> accepted c0 c1 w res cm p q ->
    in_joint_map res q = true /\ checked_move res collide p q /\
    (collide (fst q mod res, snd q mod res) = false -> collide (fst p mod res, snd p mod res) = false).
  Proof.
    intros Ip Q0 Q1 [c [Ec Lc]]. destruct (C20_move_is_accepted_iff_samples_are_free c0 c1 w res cm p q the_sane Ip Q0 Q1) as (c' & d & Ec' & SH & P).
    rewrite Ec in Ec'. injection Ec' as <-. apply P in Lc. destruct Lc as [Iq F]. split; [exact Iq|].
    pose proof (C20_samples_follow_the_segment res p d Hres Ip) as FO. destruct SH as (A & B & C & D). specialize (FO C D). split.
    - exists d, (sample_cells p d). split; [split; [exact A|]; split; [exact B|]; split; assumption|]. split; [exact FO|]. intros x Ix. apply free_iff. apply F. exact Ix.
    - intros Fq. assert (DZ : {d = (0, 0)} + {d <> (0, 0)}) by (decide equality; apply Z.eq_dec). destruct DZ as [->|Nz].
      + cbn [fst snd] in A, B. destruct A as [k1 A], B as [k2 B].
        replace (fst p mod res) with (fst q mod res); [replace (snd p mod res) with (snd q mod res); [exact Fq|]|].
        * replace (snd q) with (snd p + (- k2) * res) by lia. apply Z.mod_add. lia.
        * replace (fst q) with (fst p + (- k1) * res) by lia. apply Z.mod_add. lia.
      + destruct FO as (_ & _ & Hd). destruct (Hd Nz) as [H0 _]. apply free_iff. apply F. destruct (sample_cells p d) as [|a l]; [discriminate|]. cbn in H0. injection H0 as ->. left. reflexivity.
  Qed.
  Lemma path_checked : forall l p, in_joint_map res p = true -> (forall q, In q l -> int32 (fst q) /\ int32 (snd q)) ->
    each_move (accepted c0 c1 w res cm) (p :: l) -> collide (last (p :: l) p) = false ->
    each_move (checked_move res collide) (p :: l) /\ forall q, In q (p :: l) -> in_joint_map res q = true /\ collide q = false.
  Proof.
    induction l as [|q l IH]; intros p Ip I32 A F.
    - split; [exact I|]. intros q [<-|[]]. auto.
    - destruct A as [A1 A2]. destruct (I32 q (or_introl eq_refl)) as [Q0 Q1]. destruct (accepted_checked p q Ip Q0 Q1 A1) as (Iq & Ch & Back).
      destruct (IH q Iq (fun x Hx => I32 x (or_intror Hx)) A2) as [R1 R2].
      { etransitivity; [|exact F]. f_equal. exact (last_default q l q p). }
      split; [split; [exact Ch|exact R1]|]. intros x [<-|Ix]; [|apply R2; exact Ix]. split; [exact Ip|]. rewrite (Periodic p Ip). apply Back.
      destruct (R2 q (or_introl eq_refl)) as [_ Fq]. rewrite (Periodic q Iq) in Fq. exact Fq.
  Qed.
End Plan.

(** C20: a path found by the search is free.  For a map built from collision geometry that repeats every full turn, a path of accepted moves that ends in
    a free configuration (this is checked before the search) visits only free cells, and every move is checked along its segment. *)
Theorem C20_planned_path_is_collision_checked c0 c1 w res range collide cm s path :
  coef_ok c0 -> coef_ok c1 -> coef_ok w -> 1 <= res <= 1024 -> 1 <= range -> joint_map res range collide = Ok cm ->
  (forall p, in_joint_map res p = true -> collide p = collide (fst p mod res, snd p mod res)) ->
  in_joint_map res s = true -> (forall q, In q path -> int32 (fst q) /\ int32 (snd q)) ->
  each_move (accepted c0 c1 w res cm) (s :: path) -> collide (last (s :: path) s) = false ->
  each_move (checked_move res collide) (s :: path) /\ forall q, In q (s :: path) -> in_joint_map res q = true /\ collide q = false.
Proof. intros A B C D E F G H I J K. exact (path_checked c0 c1 w res range collide cm A B C D E F G path s H I J K). Qed.

(** *** What is sent to the joints *)
Definition same_turns (res : Z) (u p : jcell) : Prop := same_direction res (fst u) (fst p) /\ same_direction res (snd u) (snd p).
Definition same_angle (res : Z) (a b : Q) : Prop := exists k, (a == b + inject_Z (k * res))%Q.

Lemma unwrap_run res : 0 < res -> forall l p u, same_turns res u p -> exists l', unwrap res u l = Ok l' /\ Forall2 (same_turns res) l' l /\
  each_move (fun a b => shortest_way res (snd a) (snd b) (fst (fst b) - fst (fst a), snd (fst b) - snd (fst a))) (combine (u :: l') (p :: l)).
Proof.
  intros H. induction l as [|q l IH]; intros p u [[k1 S1] [k2 S2]].
  - exists []. split; [reflexivity|]. split; [constructor|exact I].
  - cbn [unwrap]. destruct (cycle2_run res (fst q - fst u, snd q - snd u) H) as [d (E & [j1 A] & [j2 B] & C & D)]. rewrite E. cbn [bind fst snd] in *.
    set (n2 := (fst u + fst d, snd u + snd d)).
    assert (T : same_turns res n2 q) by (split; [exists j1|exists j2]; unfold n2; cbn [fst snd]; lia).
    destruct (IH q n2 T) as [l' (E' & F & M)]. rewrite E'. cbn [bind]. exists (n2 :: l'). split; [reflexivity|]. split; [constructor; assumption|].
    split; [|exact M]. unfold n2. cbn [fst snd]. replace (fst u + fst d - fst u) with (fst d) by lia. replace (snd u + snd d - snd u) with (snd d) by lia.
    split; [exists (j1 - k1); cbn [fst]; lia|]. split; [exists (j2 - k2); cbn [snd]; lia|]. split; assumption.
Qed.

Lemma add_to_last_last l r : forall a, l <> [] -> last (add_to_last l r) a = ((fst (last l a) + fst r)%Q, (snd (last l a) + snd r)%Q).
Proof.
  induction l as [|x l IH]; intros a H; [congruence|]. destruct l as [|y l]; [reflexivity|].
  change (add_to_last (x :: y :: l) r) with (x :: add_to_last (y :: l) r). assert (N : add_to_last (y :: l) r <> []) by (destruct l; discriminate).
  destruct (add_to_last (y :: l) r) as [|b t] eqn:Et; [congruence|]. exact (IH a ltac:(discriminate)).
Qed.

Definition not_a_negative_tie (g : Q) : Prop := (0 <= g)%Q \/ forall z, ~ (g == inject_Z z + (1 # 2))%Q.
Lemma Qfloor_shift x z : Qfloor (x + inject_Z z) = Qfloor x + z.
Proof.
  pose proof (Qfloor_le x) as A. pose proof (Qlt_floor x) as B. pose proof (Qfloor_le (x + inject_Z z)) as C. pose proof (Qlt_floor (x + inject_Z z)) as D.
  rewrite inject_Z_plus in B, D. change (inject_Z 1) with 1%Q in *.
  assert (X : (inject_Z (Qfloor (x + inject_Z z)) < inject_Z (Qfloor x + z + 1))%Q) by (rewrite !inject_Z_plus; change (inject_Z 1) with 1%Q; lra).
  assert (Y : (inject_Z (Qfloor x + z) < inject_Z (Qfloor (x + inject_Z z) + 1))%Q) by (rewrite !inject_Z_plus; change (inject_Z 1) with 1%Q; lra).
  rewrite <- Zlt_Qlt in X, Y. lia.
Qed.
Lemma lround_floor g : not_a_negative_tie g -> lround g = Qfloor (g + (1 # 2)).
Proof.
  intros H. unfold lround. destruct (Qle_bool 0 g) eqn:E; [reflexivity|].
  destruct H as [H|H]; [apply Qle_bool_iff in H; congruence|].
  pose proof (Qfloor_le (- g + (1 # 2))) as A. pose proof (Qlt_floor (- g + (1 # 2))) as B. pose proof (Qfloor_le (g + (1 # 2))) as C. pose proof (Qlt_floor (g + (1 # 2))) as D.
  rewrite inject_Z_plus in B, D. change (inject_Z 1) with 1%Q in *. set (a := Qfloor (- g + (1 # 2))) in *. set (b := Qfloor (g + (1 # 2))) in *.
  assert (X : (inject_Z (a + b) < inject_Z 2)%Q) by (rewrite inject_Z_plus; change (inject_Z 2) with 2%Q; lra).
  assert (Y : (inject_Z 0 < inject_Z (a + b + 1))%Q) by (rewrite !inject_Z_plus; change (inject_Z 1) with 1%Q; change (inject_Z 0) with 0%Q; lra).
  rewrite <- Zlt_Qlt in X, Y. destruct (Z.eq_dec (a + b) 1) as [O|O]; [|lia]. exfalso.
  assert (S : (inject_Z a + inject_Z b == 1)%Q) by (rewrite <- inject_Z_plus, O; reflexivity). apply (H (b - 1)).
  assert (E1 : (inject_Z (b - 1) == inject_Z b - 1)%Q) by (unfold Z.sub; rewrite inject_Z_plus; reflexivity). rewrite E1. lra.
Qed.

Lemma residual_run res g : 0 < res -> not_a_negative_tie g -> (residual res g == g - inject_Z (lround g))%Q.
Proof.
  intros H T. rewrite (lround_floor g T). unfold residual, lift. destruct (Qle_bool 0 g); [lra|].
  set (z := Qceiling (- g * 4 / inject_Z res) * res). clearbody z.
  assert (E : (g + inject_Z z + (1 # 2) == g + (1 # 2) + inject_Z z)%Q) by lra.
  rewrite (Qfloor_comp _ _ E), Qfloor_shift, inject_Z_plus. lra.
Qed.

(** C20: what is sent after a search.  The angles of a found path are sent unwrapped: every sent configuration is the found cell up to full turns, the way from
    one to the next is the checked shortest way, and the last one is the requested goal up to full turns (the sub-cell part of the goal is kept; only for a
    negative goal angle exactly between two cells it is not). *)
Theorem C20_sent_angles_follow_the_found_path c0 c1 w res cm sg eg path out :
  sane c0 c1 w res cm -> 2 <= res -> makePlan res c0 c1 w cm sg eg (Some path) = Ok (Some out) ->
  let s := metric2Grid res sg in let e := metric2Grid res eg in
  hd_error path = Some s -> last path s = e ->
  not_a_negative_tie (fst eg) -> not_a_negative_tie (snd eg) ->
  (out = [sg; eg] /\ accepted c0 c1 w res cm s e) \/
  (~ accepted c0 c1 w res cm s e /\
   exists l, Forall2 (same_turns res) (s :: l) path /\
     each_move (fun a b => shortest_way res (snd a) (snd b) (fst (fst b) - fst (fst a), snd (fst b) - snd (fst a))) (combine (s :: l) path) /\
     (forall i u, nth_error l i = Some u -> (S i < length l)%nat -> nth_error out (S i) = Some (inject_Z (fst u - res), inject_Z (snd u - res))) /\
     hd_error out = Some sg /\ length out = length path /\
     same_angle res (fst (last out sg)) (fst eg) /\ same_angle res (snd (last out sg)) (snd eg)).
Proof.
  intros Sane H2 E s e Hd Hl T0 T1. unfold makePlan in E. fold s in E. fold e in E.
  destruct (read_joint_map res cm s) as [a|] eqn:Rs; [|discriminate E]. cbn [bind] in E. destruct (a =? 100); [discriminate E|].
  destruct (read_joint_map res cm e) as [b|] eqn:Re; [|discriminate E]. cbn [bind] in E. destruct (b =? 100); [discriminate E|].
  assert (Is : in_joint_map res s = true) by (unfold read_joint_map in Rs; destruct (in_joint_map res s); [reflexivity|discriminate]).
  assert (Ie : in_joint_map res e = true) by (unfold read_joint_map in Re; destruct (in_joint_map res e); [reflexivity|discriminate]).
  pose proof (sane_res _ _ _ _ _ Sane) as Hr.
  assert (I32 : int32 (fst e) /\ int32 (snd e)) by (unfold in_joint_map in Ie; unfold int32; lia).
  destruct (move_cost_run c0 c1 w res cm s e Sane Is (proj1 I32) (proj2 I32)) as (c & d & Ec & Ed & SH & P).
  rewrite Ed in E. cbn [bind] in E. rewrite Ec in E. cbn [bind] in E.
  assert (ACC : accepted c0 c1 w res cm s e <-> Bltb c (B754_zero false) = false).
  { split; [intros [c' [X Y]]; rewrite Ec in X; injection X as <-; exact Y|intros X; exists c; auto]. }
  destruct P as [[_ [L1 L2]]|[P [L1 L2]]]; rewrite L2 in E.
  - injection E as <-. left. split; [reflexivity|]. apply ACC. exact L1.
  - right. split; [rewrite ACC, L1; discriminate|].
    assert (Ss : same_turns res s s) by (split; exists 0; lia).
    destruct path as [|p0 t]; [discriminate Hd|]. cbn [hd_error] in Hd. injection Hd as ->. cbn [tl] in E.
    destruct (unwrap_run res ltac:(lia) t s s Ss) as [l (El & F & M)]. rewrite El in E. cbn [bind] in E. injection E as <-. exists l.
    assert (Ll : length l = length t) by (clear - F; induction F; [reflexivity|cbn [length]; congruence]).
    assert (Nl : l <> []).
    { intros ->. cbn in Ll. destruct t; [|discriminate]. cbn in Hl. apply P. rewrite <- Hl. split; [exact Is|].
      assert (d = (0, 0)).
      { destruct SH as ([k1 A] & [k2 B] & C & D). rewrite <- Hl in A, B. rewrite Z.sub_diag in A, B. unfold signed_range in *.
        assert ((res + 1) / 2 <= res) by (apply Z.div_le_upper_bound; lia). assert (res / 2 < res) by (apply Z.div_lt_upper_bound; lia).
        assert ((res + 1) / 2 < res) by (apply Z.div_lt_upper_bound; lia). destruct d as [x y]. cbn [fst snd] in A, B, C, D. assert (k1 = 0) by nia. assert (k2 = 0) by nia. subst k1 k2. f_equal; lia. }
      subst d. intros p []. }
    split; [constructor; assumption|]. split; [exact M|].
    assert (Ne : sg :: map (grid2Metric res) l <> []) by discriminate.
    set (r := (residual res (fst eg), residual res (snd eg))).
    assert (AT : forall L, length (add_to_last L r) = length L).
    { clear. induction L as [|x L IH]; [reflexivity|]. destruct L as [|y L]; [reflexivity|]. cbn [add_to_last length] in *. rewrite IH. reflexivity. }
    assert (AN : forall L i, (S i < length L)%nat -> nth_error (add_to_last L r) i = nth_error L i).
    { clear. induction L as [|x L IH]; intros i Hi; [cbn in Hi; lia|]. destruct L as [|y L]; [cbn in Hi; lia|]. destruct i as [|i]; [reflexivity|].
      cbn [length] in Hi. change (nth_error (add_to_last (y :: L) r) i = nth_error (y :: L) i). apply IH. cbn [length]. lia. }
    split; [|split; [|split]].
    + intros i u Hu Hi. etransitivity; [apply (AN (sg :: map (grid2Metric res) l)); cbn [length]; rewrite map_length; lia|]. cbn [nth_error]. rewrite nth_error_map, Hu. reflexivity.
    + destruct l as [|u l']; [congruence|]. reflexivity.
    + etransitivity; [exact (AT (sg :: map (grid2Metric res) l))|]. cbn [length]. rewrite map_length. lia.
    + assert (LL : last (sg :: map (grid2Metric res) l) sg = grid2Metric res (last l s)).
      { clear - Nl. destruct l as [|u l]; [congruence|]. change (last (map (grid2Metric res) (u :: l)) sg = grid2Metric res (last (u :: l) s)). clear Nl.
        revert u. induction l as [|v l IH]; intros u; [reflexivity|]. exact (IH v). }
      assert (SE : same_turns res (last l s) e).
      { rewrite <- Hl. clear - F Nl. destruct F as [|u q l t H F]; [congruence|]. clear Nl. change (same_turns res (last (u :: l) s) (last (q :: t) s)).
        revert u q H. induction F as [|u' q' l t H' F IH]; intros u q H; [exact H|]. exact (IH u' q' H'). }
      pose proof (add_to_last_last _ r sg Ne) as AL. rewrite LL in AL.
      change (same_angle res (fst (last (add_to_last (sg :: map (grid2Metric res) l) r) sg)) (fst eg) /\ same_angle res (snd (last (add_to_last (sg :: map (grid2Metric res) l) r) sg)) (snd eg)).
      rewrite AL. unfold r. cbn [fst snd grid2Metric]. destruct SE as [[k1 S1] [k2 S2]].
      rewrite S1, S2. unfold e, metric2Grid. cbn [fst snd]. split; [exists k1|exists k2].
      * rewrite (residual_run res (fst eg) ltac:(lia) T0). replace (lround (fst eg) + res + k1 * res - res) with (lround (fst eg) + k1 * res) by lia. rewrite inject_Z_plus. lra.
      * rewrite (residual_run res (snd eg) ltac:(lia) T1). replace (lround (snd eg) + res + k2 * res - res) with (lround (snd eg) + k2 * res) by lia. rewrite inject_Z_plus. lra.
Qed.

(** C20: a plan without search (start and goal connected by one move) is checked along the way that is sent if the goal is less than half a turn away. *)
Theorem C20_direct_plan_is_checked_below_half_a_turn c0 c1 w res range collide cm sg eg astar :
  coef_ok c0 -> coef_ok c1 -> coef_ok w -> 1 <= res <= 1024 -> 1 <= range -> joint_map res range collide = Ok cm ->
  (forall p, in_joint_map res p = true -> collide p = collide (fst p mod res, snd p mod res)) ->
  makePlan res c0 c1 w cm sg eg astar = Ok (Some [sg; eg]) -> accepted c0 c1 w res cm (metric2Grid res sg) (metric2Grid res eg) ->
  let s := metric2Grid res sg in let e := metric2Grid res eg in
  let d := (fst e - fst s, snd e - snd s) in
  2 * Z.abs (fst d) + 1 < res -> 2 * Z.abs (snd d) + 1 < res ->
  exists cells, follows s d cells /\ forall c, In c cells -> collide (fst c mod res, snd c mod res) = false.
Proof.
  intros H0 H1 Hw Hr Hrange Hmap Per E Acc s e d A0 A1. fold s in Acc. fold e in Acc.
  assert (Is : in_joint_map res s = true).
  { unfold makePlan in E. fold s in E. unfold read_joint_map at 1 in E. destruct (in_joint_map res s); [reflexivity|discriminate E]. }
  assert (Ie : in_joint_map res e = true).
  { unfold makePlan in E. fold s in E. fold e in E. unfold read_joint_map in E. rewrite Is in E. cbn [bind] in E. destruct (cm s =? 100); [discriminate E|].
    destruct (in_joint_map res e); [reflexivity|discriminate E]. }
  assert (I32 : int32 (fst e) /\ int32 (snd e)) by (unfold in_joint_map in Ie; unfold int32; lia).
  pose proof (the_sane c0 c1 w res range collide cm H0 H1 Hw Hr Hrange Hmap Per) as Sane.
  destruct (move_cost_run c0 c1 w res cm s e Sane Is (proj1 I32) (proj2 I32)) as (c & d' & Ec & Ed & SH & P).
  destruct Acc as [c' [X Y]]. rewrite Ec in X. injection X as <-. destruct P as [[[_ P] _]|[_ [L _]]]; [|congruence].
  assert (Dd : d' = d).
  { assert (SD : forall z, 2 * Z.abs z + 1 < res -> cycleElement z res = Ok z).
    { intros z Hz. unfold cycleElement, c_rem, c_quot. destruct (Z.eqb_spec res 0) as [|_]; [lia|].
      destruct (half_facts res ltac:(lia)) as [E1 E2]. unfold c_quot in E1. rewrite E1.
      assert (Rm : Z.rem z res = z) by (apply Z.rem_small_iff; lia). rewrite Rm. pose proof (Z.div_mod res 2 ltac:(lia)). pose proof (Z.mod_pos_bound res 2 ltac:(lia)).
      destruct (Z.ltb_spec z (res / 2 - res)); [lia|]. destruct (Z.leb_spec (res / 2) z); [|reflexivity].
      exfalso. lia. }
    unfold cycle2 in Ed. cbn [fst snd] in Ed. rewrite (SD (fst e - fst s) A0), (SD (snd e - snd s) A1) in Ed. cbn [bind] in Ed. injection Ed as <-. reflexivity. }
  subst d'. destruct SH as (_ & _ & C & D). exists (sample_cells s d). split; [exact (C20_samples_follow_the_segment res s d Hr Is C D)|].
  intros x Ix. apply (free_iff res range collide cm Hr Hrange Hmap Per). apply P. exact Ix.
Qed.

(** C20, refuted: a plan without search to a goal more than half a turn away is checked along the other way round.  Joint 0 has to go from cell -60 to cell
    60 of 128; the check goes through the half turn (-60 to -68), the joint is sent straight through 0, where it collides. *)
Definition gate_collide (c : jcell) : bool := fst c mod 128 =? 0.
Definition one32 : f32 := f32_of_Z 1.
Theorem C20_direct_plan_is_checked_along_the_sent_way_refuted : exists sg eg cm,
  makePlan 128 one32 one32 one32 cm sg eg None = Ok (Some [sg; eg]) /\ (cm = mark gate_collide) /\
  (forall c, gate_collide c = gate_collide (fst c mod 128, snd c mod 128)) /\
  (fst sg < 0)%Q /\ (0 < fst eg)%Q /\ (snd sg == snd eg)%Q /\ cm (metric2Grid 128 (0%Q, snd sg)) = 100.
Proof.
  exists (inject_Z (-60), 0%Q), (inject_Z 60, 0%Q), (mark gate_collide). split; [|split; [reflexivity|split; [|split; [|split; [|split]]]]].
  - assert (E : match makePlan 128 one32 one32 one32 (mark gate_collide) (inject_Z (-60), 0%Q) (inject_Z 60, 0%Q) None with Ok (Some [a; b]) => (a, b) | _ => ((0%Q, 0%Q), (0%Q, 0%Q)) end
       = ((inject_Z (-60), 0%Q), (inject_Z 60, 0%Q)) ) by (vm_compute; reflexivity).
    destruct (makePlan 128 one32 one32 one32 (mark gate_collide) (inject_Z (-60), 0%Q) (inject_Z 60, 0%Q) None) as [[[|a [|b [|? ?]]]|]|]; try discriminate E.
    injection E as -> ->. reflexivity.
  - intros c. unfold gate_collide. cbn [fst]. rewrite Z.mod_mod by lia. reflexivity.
  - reflexivity.
  - reflexivity.
  - reflexivity.
  - vm_compute. reflexivity.
Qed.
(** C20, refuted: the target of a move is not checked by the move itself: a step into a colliding cell is accepted. *)
Theorem C20_target_of_a_move_is_checked_refuted : exists cm, cm (11, 10) = 100 /\ accepted one32 one32 one32 128 cm (10, 10) (11, 10).
Proof.
  exists (fun c => if jeqb c (11, 10) then 100 else 0). split; [reflexivity|].
  assert (E : match move_cost 128 one32 one32 one32 (fun c => if jeqb c (11, 10) then 100 else 0) (10, 10) (11, 10) with Ok c => Bltb c (B754_zero false) | UB => true end = false) by (vm_compute; reflexivity).
  unfold accepted. destruct (move_cost 128 one32 one32 one32 (fun c => if jeqb c (11, 10) then 100 else 0) (10, 10) (11, 10)) as [c|]; [|discriminate E]. exists c. auto.
Qed.
(** C20, refuted: the estimate of the remaining cost is not a lower bound: across the end of the map one step costs 1 and is estimated as 255. *)
Theorem C20_estimate_is_a_lower_bound_refuted : exists cur goal c,
  move_cost 128 one32 one32 one32 (fun _ => 0) cur goal = Ok c /\ Bltb (f32_of_Z 0) c = true /\ Bltb c (estimate2 one32 one32 cur goal) = true.
Proof.
  exists (255, 0), (0, 0).
  assert (E : match move_cost 128 one32 one32 one32 (fun _ => 0) (255, 0) (0, 0) with Ok c => Bltb (f32_of_Z 0) c && Bltb c (estimate2 one32 one32 (255, 0) (0, 0)) | UB => false end = true) by (vm_compute; reflexivity).
  destruct (move_cost 128 one32 one32 one32 (fun _ => 0) (255, 0) (0, 0)) as [c|]; [|discriminate E]. exists c. apply andb_true_iff in E. destruct E. auto.
Qed.
(** C20, refuted: a joint that reports an angle of a full turn or more (the map ends there) makes the planner read outside of the map. *)
Theorem C20_any_joint_angle_can_be_planned_from_refuted c0 c1 w res cm sg eg astar : 0 < res -> (inject_Z res <= fst sg)%Q ->
  makePlan res c0 c1 w cm sg eg astar = UB.
Proof.
  intros H L. unfold makePlan, read_joint_map.
  assert (I : in_joint_map res (metric2Grid res sg) = false).
  { unfold in_joint_map, metric2Grid. cbn [fst snd]. assert (res <= lround (fst sg)). { rewrite <- (lround_Z res). apply lround_mono. exact L. } lia. }
  rewrite I. reflexivity.
Qed.

Module Examples.
  (** A map with an obstacle wall and a gap; a diagonal and a long move. *)
  Lemma one_ok : coef_ok one32.
  Proof. destruct (f32_of_Z_exact 1) as [F E]; [lia|]. constructor; [exact F|]. unfold one32. rewrite E. split; lra. Qed.
  Definition walls (c : jcell) : Z := if (fst c =? 70) && negb (snd c =? 64) then 100 else 0.
  Example walls_sane : sane one32 one32 one32 128 walls.
  Proof. constructor; try apply one_ok; [lia|]. intros p _. unfold walls. destruct (_ && _); lia. Qed.
  Example sampled : sample_cells (64, 64) (5, 3) = [(64, 64); (65, 65); (66, 65); (67, 66); (68, 66)].
  Proof. vm_compute. reflexivity. Qed.
  Definition verdict (q : jcell) := match move_cost 128 one32 one32 one32 walls (64, 64) q with Ok c => Some (Bltb c (B754_zero false)) | UB => None end.
  Example through_the_gap : verdict (76, 64) = Some false. Proof. vm_compute. reflexivity. Qed.
  Example into_the_wall : verdict (76, 66) = Some true. Proof. vm_compute. reflexivity. Qed.
  Example out_of_the_map : verdict (64, 256) = Some true. Proof. vm_compute. reflexivity. Qed.
  Example negative_target : verdict (-1, 64) = Some true. Proof. vm_compute. reflexivity. Qed.
  (** A plan by search around the half turn: sent as 60, 66, 67.25. *)
  Example searched : match makePlan 128 one32 one32 one32 (fun c => if fst c mod 128 =? 65 then 100 else 0) (inject_Z 60, 0%Q) ((-61 # 1) + (1 # 4), 0)%Q (Some [(188, 128); (66, 128); (67, 128)]) with
    | Ok (Some l) => map (fun a => Qred (fst a)) l | _ => [] end = [60 # 1; 66 # 1; 269 # 4]%Q.
  Proof. vm_compute. reflexivity. Qed.
  Example small_map : joint_map 8 2 seam_collide <> UB.
  Proof. destruct (joint_map_run 8 2 ltac:(lia) seam_collide) as [cm [E _]]. rewrite E. discriminate. Qed.
End Examples.

Print Assumptions C20_samples_follow_the_segment.
Print Assumptions C20_move_is_accepted_iff_samples_are_free.
Print Assumptions C20_collision_map_marks_collisions.
Print Assumptions C20_zero_expansion_is_defined_refuted.
Print Assumptions C20_expansion_is_cyclic_refuted.
Print Assumptions C20_planned_path_is_collision_checked.
Print Assumptions C20_sent_angles_follow_the_found_path.
Print Assumptions C20_direct_plan_is_checked_below_half_a_turn.
Print Assumptions C20_direct_plan_is_checked_along_the_sent_way_refuted.
Print Assumptions C20_target_of_a_move_is_checked_refuted.
Print Assumptions C20_estimate_is_a_lower_bound_refuted.
Print Assumptions C20_any_joint_angle_can_be_planned_from_refuted.
