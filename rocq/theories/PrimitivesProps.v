(** C65: the moves the 3D planner searches with are exactly the turns in place, the straight moves and the circular arcs a car-like
    robot can drive, and the same manoeuvres are available in every direction. *)
From Coq Require Import Reals Lra Lia Psatz.
From Flocq Require Import Core.
From Verif Require Import Common Hysteresis HysteresisProps PathGeom Primitives.
Local Open Scope R_scope.

(** *** Specification *)
(** A sane configuration: the angular resolution divides the full turn into [pr_angle] steps. *)
Definition sane (C : prim_cfg) : Prop := 0 < pr_lin C /\ (0 < pr_angle C)%Z /\ (0 <= pr_range C)%Z /\ pr_ang C = 2 * PI / IZR (pr_angle C).
(** Heading in radians. *)
Definition heading (C : prim_cfg) (i : Z) : R := 2 * PI * IZR i / IZR (pr_angle C).
(** The displacement in metres along the heading and to its left. *)
Definition ahead (C : prim_cfg) (i : Z) (p : prim) : R :=
  pr_lin C * (cos (heading C i) * IZR (fst (fst p)) + sin (heading C i) * IZR (snd (fst p))).
Definition left_of (C : prim_cfg) (i : Z) (p : prim) : R :=
  pr_lin C * (cos (heading C i) * IZR (snd (fst p)) - sin (heading C i) * IZR (fst (fst p))).
(** The turn in radians, the short way round, to the left at exactly half a turn. *)
Definition turn_of (C : prim_cfg) (p : prim) : R :=
  if (2 * snd p <=? pr_angle C)%Z then heading C (snd p) else heading C (snd p - pr_angle C).

Definition in_place (p : prim) : Prop := fst p = (0, 0)%Z /\ snd p <> 0%Z.
Definition straight (C : prim_cfg) (i : Z) (p : prim) : Prop :=
  snd p = 0%Z /\ pr_lin C / 2 <= Rabs (ahead C i p) /\ pr_aspect C * Rabs (left_of C i p) <= Rabs (ahead C i p).
(** The axles of the two poses meet at distance [r1] from the start and [r2] from the end (signed, left is positive): the centre
    of the turn. *)
Definition centre_at (C : prim_cfg) (i : Z) (p : prim) (r1 r2 : R) : Prop :=
  ahead C i p = r2 * sin (turn_of C p) /\ left_of C i p = r1 - r2 * cos (turn_of C p).
Definition curve (C : prim_cfg) (i : Z) (p : prim) : Prop :=
  snd p <> 0%Z /\ (9 <= fst (fst p) * fst (fst p) + snd (fst p) * snd (fst p))%Z /\
  Rabs (turn_of C p) < PI / 2 - 1 / 1000000 /\
  pr_lin C / 2 <= Rabs (ahead C i p) /\ pr_lin C / 2 <= Rabs (left_of C i p) /\
  0 <= ahead C i p * left_of C i p * turn_of C p /\
  exists r1 r2, centre_at C i p r1 r2 /\ Rabs (r1 - r2) < 3 / 2 * pr_lin C /\ pr_min_radius C <= Rabs ((r1 + r2) / 2).
Definition in_range (C : prim_cfg) (p : prim) : Prop :=
  (fst (fst p) * fst (fst p) + snd (fst p) * snd (fst p) <= pr_range C * pr_range C /\ 0 <= snd p < pr_angle C)%Z.
Definition drivable (C : prim_cfg) (i : Z) (p : prim) : Prop := in_place p \/ straight C i p \/ curve C i p.

(** *** Proofs *)
Lemma lroundR_zero x : (lroundR x =? 0)%Z = true <-> Rabs x < 1 / 2.
Proof.
  split; intros H.
  - apply Z.eqb_eq in H. destruct (Rlt_dec (Rabs x) (1 / 2)) as [L|L]; [exact L|exfalso].
    unfold Rabs in L. destruct (Rcase_abs x).
    + assert (lroundR x <= -1)%Z; [|lia]. replace (-1)%Z with (lroundR (-(1/2))).
      * apply lroundR_mono. lra.
      * unfold lroundR, Znearest. replace (Zfloor (-(1/2))) with (-1)%Z.
        2:{ symmetry. apply Zfloor_imp. cbn. lra. }
        replace (-(1/2) - IZR (-1)) with (/ 2) by (cbn; lra). rewrite Rcompare_Eq by reflexivity. reflexivity.
    + assert (1 <= lroundR x)%Z; [|lia]. rewrite <- lroundR_half. apply lroundR_mono. lra.
  - apply Z.eqb_eq. apply Znearest_imp. rewrite Rminus_0_r. lra.
Qed.

Section WithC.
  Variable C : prim_cfg.
  Hypothesis S : sane C.
  Let A := pr_angle C.

  Lemma lin_pos : 0 < pr_lin C. Proof. apply S. Qed.
  Lemma A_pos : (0 < pr_angle C)%Z. Proof. apply S. Qed.
  Lemma A_posR : 0 < IZR (pr_angle C). Proof. apply (IZR_lt 0). apply A_pos. Qed.
  Lemma ang_step z : IZR z * pr_ang C = heading C z.
  Proof. destruct S as (_ & _ & _ & ->). unfold heading. pose proof A_posR. field. lra. Qed.
  Lemma cached_angle : cached C = pr_angle C.
  Proof.
    unfold cached. destruct S as (_ & _ & _ & ->). pose proof A_posR. pose proof PI_RGT_0.
    replace (PI * 2 / (2 * PI / IZR (pr_angle C))) with (IZR (pr_angle C)) by (field; lra). apply lroundR_Z.
  Qed.
  Lemma heading_plus a b : heading C (a + b) = heading C a + heading C b.
  Proof. unfold heading. rewrite plus_IZR. pose proof A_posR. field. lra. Qed.
  Lemma heading_minus a b : heading C (a - b) = heading C a - heading C b.
  Proof. unfold heading. rewrite minus_IZR. pose proof A_posR. field. lra. Qed.
  Lemma heading_A : heading C (pr_angle C) = 2 * PI.
  Proof. unfold heading. pose proof A_posR. field. lra. Qed.
  Lemma heading_lt a b : (a < b)%Z -> heading C a < heading C b.
  Proof.
    intros H. apply IZR_lt in H. unfold heading. pose proof A_posR. pose proof PI_RGT_0.
    unfold Rdiv. apply Rmult_lt_compat_r; [apply Rinv_0_lt_compat; lra|]. nra.
  Qed.
  Lemma heading_le a b : (a <= b)%Z -> heading C a <= heading C b.
  Proof. intros H. destruct (Z.eq_dec a b) as [->|]; [lra|]. left. apply heading_lt. lia. Qed.
  Lemma heading_double a : heading C (2 * a) = 2 * heading C a.
  Proof. unfold heading. rewrite mult_IZR. pose proof A_posR. field. lra. Qed.
  Lemma heading_0 : heading C 0 = 0.
  Proof. unfold heading. pose proof A_posR. field. lra. Qed.

  Definition next_of (i t : Z) : Z := (let n := i + t in if pr_angle C <=? n then n - pr_angle C else n)%Z.
  Lemma turn_cases i p : (0 <= i < pr_angle C)%Z -> (0 <= snd p < pr_angle C)%Z ->
    let a := normalize (IZR (next_of i (snd p)) * pr_ang C + - IZR i * pr_ang C) in
    a = turn_of C p \/ (Rabs a = PI /\ Rabs (turn_of C p) = PI).
  Proof.
    intros Hi Ht. cbv zeta. replace (- IZR i * pr_ang C) with (- (IZR i * pr_ang C)) by ring. rewrite !ang_step.
    set (t := snd p) in *. pose proof PI_RGT_0 as Hpi.
    assert (E : heading C (next_of i t) + - heading C i = heading C (if (pr_angle C <=? i + t)%Z then t - pr_angle C else t)).
    { unfold next_of. cbv zeta. destruct (Z.leb_spec (pr_angle C) (i + t)); rewrite ?heading_minus, ?heading_plus; ring. }
    rewrite E. unfold turn_of. fold t. pose proof (heading_double t) as D. pose proof heading_A as HA. pose proof heading_0 as H0.
    pose proof (heading_le 0 t ltac:(lia)). pose proof (heading_lt t (pr_angle C) ltac:(lia)).
    unfold normalize. destruct (Z.leb_spec (pr_angle C) (i + t)) as [L|L]; destruct (Z.leb_spec (2 * t) (pr_angle C)) as [M|M].
    - rewrite heading_minus. apply heading_le in M as M'. rewrite D, HA in M'. rewrite HA.
      destruct (Rlt_dec PI (heading C t - 2 * PI)); [lra|]. destruct (Rlt_dec (heading C t - 2 * PI) (- PI)); [left; lra|].
      right. assert (heading C t = PI) as -> by lra. replace (PI - 2 * PI) with (- PI) by ring. rewrite Rabs_Ropp, Rabs_right by lra. auto.
    - apply heading_lt in M as M'. rewrite D, HA in M'. rewrite heading_minus, HA.
      destruct (Rlt_dec PI (heading C t - 2 * PI)); [lra|]. destruct (Rlt_dec (heading C t - 2 * PI) (- PI)); [lra|]. left. reflexivity.
    - apply heading_le in M as M'. rewrite D, HA in M'. destruct (Rlt_dec PI (heading C t)); [lra|].
      destruct (Rlt_dec (heading C t) (- PI)); [lra|]. left. reflexivity.
    - apply heading_lt in M as M'. rewrite D, HA in M'. destruct (Rlt_dec PI (heading C t)); [|lra]. left. rewrite heading_minus, HA. reflexivity.
  Qed.

  Lemma motion_value i p : (0 <= i < pr_angle C)%Z -> in_range C p ->
    exists a, (a = turn_of C p \/ (Rabs a = PI /\ Rabs (turn_of C p) = PI)) /\
      getMotion C i (fst (fst p) + pr_range C, snd (fst p) + pr_range C, next_of i (snd p))%Z = Ok (ahead C i p, left_of C i p, a).
  Proof.
    intros Hi [Hr Ht]. destruct S as (L & _ & R & _). exists (normalize (IZR (next_of i (snd p)) * pr_ang C + - IZR i * pr_ang C)). split; [apply turn_cases; assumption|].
    unfold getMotion. rewrite cached_angle.
    match goal with |- context [if ?b then _ else UB] => replace b with true end.
    2:{ symmetry. assert (- pr_range C <= fst (fst p) <= pr_range C)%Z by nia. assert (- pr_range C <= snd (fst p) <= pr_range C)%Z by nia.
        rewrite !andb_true_iff, !Z.leb_le, !Z.ltb_lt. unfold next_of. cbv zeta. destruct (Z.leb_spec (pr_angle C) (i + snd p)); lia. }
    unfold rotate. f_equal. rewrite !Z.add_simpl_r. replace (- IZR i * pr_ang C) with (- (heading C i)) by (rewrite <- ang_step; ring).
    rewrite cos_neg, sin_neg. unfold ahead, left_of. f_equal. f_equal; ring.
  Qed.

  Lemma isz_spec x : isz C x = true <-> Rabs x < pr_lin C / 2.
  Proof.
    unfold isz. rewrite lroundR_zero. pose proof lin_pos as L. rewrite Rabs_mult, (Rabs_right (1 / pr_lin C)).
    2:{ apply Rle_ge. unfold Rdiv. rewrite Rmult_1_l. left. apply Rinv_0_lt_compat. exact L. }
    split; intros H.
    - apply (Rmult_lt_compat_r (pr_lin C)) in H; [|exact L]. replace (Rabs x * (1 / pr_lin C) * pr_lin C) with (Rabs x) in H by (field; lra). lra.
    - apply (Rmult_lt_reg_r (pr_lin C)); [exact L|]. replace (Rabs x * (1 / pr_lin C) * pr_lin C) with (Rabs x) by (field; lra). lra.
  Qed.

  Lemma turn_zero p : snd p = 0%Z -> turn_of C p = 0.
  Proof. intros E. unfold turn_of. rewrite E. pose proof A_pos. destruct (Z.leb_spec (2 * 0) (pr_angle C)); [apply heading_0|lia]. Qed.
  Lemma turn_nonzero p : (0 <= snd p < pr_angle C)%Z -> snd p <> 0%Z -> turn_of C p <> 0.
  Proof.
    intros H E. unfold turn_of. destruct (Z.leb_spec (2 * snd p) (pr_angle C)).
    - pose proof (heading_lt 0 (snd p) ltac:(lia)). rewrite heading_0 in *. lra.
    - pose proof (heading_lt (snd p - pr_angle C) 0 ltac:(lia)). rewrite heading_0 in *. lra.
  Qed.
  Lemma sin_nonzero a : a <> 0 -> Rabs a < PI / 2 -> sin a <> 0.
  Proof.
    intros N B. pose proof PI_RGT_0. apply Rabs_def2 in B. destruct (Rlt_dec 0 a).
    - pose proof (sin_gt_0 a ltac:(lra) ltac:(lra)). lra.
    - pose proof (sin_lt_0_var a ltac:(lra) ltac:(lra)). lra.
  Qed.

  (** The two radii of the code are the ones of the specification. *)
  Lemma arc_r2_value x a : sin a <> 0 -> arc_r2 x a = x / sin a.
  Proof.
    intros N. unfold arc_r2.
    replace (x * x + x * cos a / sin a * (x * cos a / sin a)) with ((x / sin a) * (x / sin a)).
    2:{ pose proof (sin2_cos2 a) as P. unfold Rsqr in P. replace (x * x) with ((x / sin a) * (x / sin a) * (sin a * sin a)) by (field; auto).
        replace (x * cos a / sin a * (x * cos a / sin a)) with ((x / sin a) * (x / sin a) * (cos a * cos a)) by (field; auto).
        rewrite <- Rmult_plus_distr_l, P. ring. }
    change ((x / sin a) * (x / sin a)) with (Rsqr (x / sin a)). rewrite sqrt_Rsqr_abs.
    assert (Q : x * sin a = (x / sin a) * (sin a * sin a)) by (field; auto).
    assert (0 < sin a * sin a) by (destruct (Rlt_dec 0 (sin a)); nra).
    destruct (Rlt_dec (x * sin a) 0) as [L|L]; unfold Rabs; destruct (Rcase_abs (x / sin a)); try ring; nra.
  Qed.
  Lemma centre_unique i p r1 r2 : sin (turn_of C p) <> 0 -> centre_at C i p r1 r2 ->
    arc_r1 (ahead C i p) (left_of C i p) (turn_of C p) = r1 /\ arc_r2 (ahead C i p) (turn_of C p) = r2.
  Proof.
    intros N [E1 E2]. rewrite arc_r2_value by exact N. unfold arc_r1. rewrite E1, E2. split; field; exact N.
  Qed.
  Lemma centre_exists i p : sin (turn_of C p) <> 0 ->
    centre_at C i p (arc_r1 (ahead C i p) (left_of C i p) (turn_of C p)) (arc_r2 (ahead C i p) (turn_of C p)).
  Proof. intros N. rewrite arc_r2_value by exact N. unfold arc_r1, centre_at. split; field; exact N. Qed.

  Lemma ltb_spec a b : ltb a b = true <-> a < b.
  Proof. unfold ltb. destruct (Rlt_dec a b); split; intros; try lra; try reflexivity; discriminate. Qed.
  Lemma leb_spec a b : leb a b = true <-> a <= b.
  Proof. unfold leb. destruct (Rle_dec a b); split; intros; try lra; try reflexivity; discriminate. Qed.
  Lemma ltb_false a b : ltb a b = false <-> b <= a.
  Proof. unfold ltb. destruct (Rlt_dec a b); split; intros; try lra; try reflexivity; discriminate. Qed.
  Lemma leb_false a b : leb a b = false <-> b < a.
  Proof. unfold leb. destruct (Rle_dec a b); split; intros; try lra; try reflexivity; discriminate. Qed.
  Lemma isz_false x : isz C x = false <-> pr_lin C / 2 <= Rabs x.
  Proof. pose proof (isz_spec x) as H. destruct (isz C x); split; intros; try discriminate; try reflexivity; [destruct H; lra|]. destruct (Rlt_dec (Rabs x) (pr_lin C / 2)) as [L|L]; [apply H in L; discriminate|lra]. Qed.

  Lemma keep_spec i p : (0 <= i < pr_angle C)%Z -> in_range C p -> exists b, keep C i p = Ok b /\ (b = true <-> drivable C i p).
  Proof.
    intros Hi Hr. pose proof lin_pos as L. pose proof PI_RGT_0 as Hpi. pose proof PI2_1 as Hpi2. destruct (motion_value i p Hi Hr) as (a & Ha & E).
    destruct Hr as [Hr Ht]. destruct p as [[dx dy] t]. cbn [fst snd] in *. unfold keep.
    destruct (Z.eq_dec dx 0) as [X|X]; [destruct (Z.eq_dec dy 0) as [Y|Y]|].
    { subst. cbn [Z.eqb andb]. eexists. split; [reflexivity|]. rewrite negb_true_iff, Z.eqb_neq. unfold drivable, in_place, straight, curve, ahead, left_of. cbn [fst snd].
      split; [intros N; left; auto|]. intros [[_ H]|[(_ & H & _)|(_ & H & _)]]; [exact H| |lia]. exfalso.
      rewrite Rmult_0_r, Rmult_0_r, Rplus_0_r, Rmult_0_r, Rabs_R0 in H. lra. }
    all: match goal with |- context [if ?b then Ok (negb _) else _] => replace b with false by (symmetry; apply andb_false_iff; rewrite !Z.eqb_neq; tauto) end.
    all: assert (NP : ~ in_place ((dx, dy), t)) by (intros [P _]; cbn [fst] in P; congruence).
    all: cbv zeta; fold (next_of i t); rewrite E; cbn [bind].
    all: set (p := ((dx, dy), t) : prim) in *; set (x := ahead C i p) in *; set (y := left_of C i p) in *.
    all: assert (D : (exists b, (if isz C x && negb (isz C y) then Ok false else if leb (2 * PI / 4 - eps) (Rabs a) then Ok false else
        if (t =? 0)%Z then if isz C x then Ok false else if Req_EM_T y 0 then Ok true else Ok (negb (ltb (Rabs (x / y)) (pr_aspect C)))
        else if ltb (Rabs y) (pr_lin C / 2) then Ok false else if ltb (x * y * a) 0 then Ok false else if (dx * dx + dy * dy <? 3 * 3)%Z then Ok false
        else let '(r1, r2) := radiuses (x, y, a) in if leb (pr_lin C * (3 / 2)) (Rabs (r1 - r2)) then Ok false else Ok (negb (ltb (Rabs ((r1 + r2) / 2)) (pr_min_radius C)))) = Ok b /\
        (b = true <-> straight C i p \/ curve C i p))); [|destruct D as (b & D1 & D2); exists b; split; [exact D1|]; rewrite D2; unfold drivable; tauto].
    all: clear E NP; unfold eps; unfold straight, curve; change (snd p) with t; change (fst (fst p)) with dx; change (snd (fst p)) with dy; fold x y.
    all: destruct (isz C x) eqn:Zx; [apply isz_spec in Zx|apply isz_false in Zx].
    1,3: exists false; split; [|split; [discriminate|intros [(_ & H & _)|(_ & _ & _ & H & _)]; lra]]; destruct (isz C y) eqn:Zy; cbn [negb andb]; [|reflexivity]; apply isz_spec in Zy;
      destruct (leb (2 * PI / 4 - 1 / 1000000) (Rabs a)); [reflexivity|]; destruct (t =? 0)%Z; [reflexivity|]; rewrite (proj2 (ltb_spec _ _) Zy); reflexivity.
    all: cbn [negb andb].
    all: destruct (leb (2 * PI / 4 - 1 / 1000000) (Rabs a)) eqn:Hq; [apply leb_spec in Hq|apply leb_false in Hq].
    1,3: exists false; split; [reflexivity|]; split; [discriminate|]; intros [(T & _ & _)|(_ & _ & T & _)];
      [ pose proof (turn_zero p T) as T'; destruct Ha as [Ha|[Ha1 Ha2]]; [rewrite Ha, T', Rabs_R0 in Hq; lra|rewrite T', Rabs_R0 in Ha2; lra]
      | destruct Ha as [Ha|[Ha1 Ha2]]; [rewrite Ha in Hq; lra|lra]].
    all: assert (HA : a = turn_of C p) by (destruct Ha as [Ha|[Ha1 Ha2]]; [exact Ha|lra]); clear Ha; subst a.
    all: destruct (Z.eqb_spec t 0) as [T|T].
    1,3: destruct (Req_EM_T y 0) as [Y0|Y0].
    1,3: exists true; split; [reflexivity|]; split; [intros _; left; split; [exact T|]; split; [exact Zx|]; rewrite Y0, Rabs_R0; lra|reflexivity].
    1,2: eexists; split; [reflexivity|]; rewrite negb_true_iff, ltb_false; assert (0 < Rabs y) by (apply Rabs_pos_lt; exact Y0);
        assert (Q : Rabs (x / y) * Rabs y = Rabs x) by (rewrite <- Rabs_mult; f_equal; field; exact Y0);
        split; [intros G; left; split; [exact T|]; split; [exact Zx|]; nra|intros [(_ & _ & G)|(G & _)]; [|contradiction]]; apply (Rmult_le_reg_r (Rabs y)); lra.
    all: assert (SN : sin (turn_of C p) <> 0) by (apply sin_nonzero; [apply turn_nonzero; [exact Ht|exact T]|lra]).
    all: destruct (ltb (Rabs y) (pr_lin C / 2)) eqn:H1; [apply ltb_spec in H1|apply ltb_false in H1];
      [exists false; split; [reflexivity|]; split; [discriminate|]; intros [(G & _)|(_ & _ & _ & _ & G & _)]; [contradiction|lra]|].
    all: destruct (ltb (x * y * turn_of C p) 0) eqn:H2; [apply ltb_spec in H2|apply ltb_false in H2];
      [exists false; split; [reflexivity|]; split; [discriminate|]; intros [(G & _)|(_ & _ & _ & _ & _ & G & _)]; [contradiction|lra]|].
    all: destruct (Z.ltb_spec (dx * dx + dy * dy) (3 * 3)) as [H3|H3];
      [exists false; split; [reflexivity|]; split; [discriminate|]; intros [(G & _)|(_ & G & _)]; [contradiction|lia]|].
    all: unfold radiuses.
    all: destruct (leb (pr_lin C * (3 / 2)) (Rabs (arc_r1 x y (turn_of C p) - arc_r2 x (turn_of C p)))) eqn:H4; [apply leb_spec in H4|apply leb_false in H4];
      [exists false; split; [reflexivity|]; split; [discriminate|]; intros [(G & _)|(_ & _ & _ & _ & _ & _ & r1 & r2 & G & G1 & _)]; [contradiction|];
       destruct (centre_unique i p r1 r2 SN G) as [<- <-]; fold x y in G1; lra|].
    all: eexists; split; [reflexivity|]; rewrite negb_true_iff, ltb_false; split.
    1,3: intros G; right; repeat split; try assumption; try lra; try lia; do 2 eexists; split; [apply (centre_exists i p SN)|]; fold x y; split; lra.
    all: intros [(G & _)|(_ & _ & _ & _ & _ & _ & r1 & r2 & G & _ & G1)]; [contradiction|]; destruct (centre_unique i p r1 r2 SN G) as [<- <-]; exact G1.
  Qed.
End WithC.

Lemma NoDup_flat_map {A B} (f : A -> list B) l : NoDup l -> (forall a, In a l -> NoDup (f a)) ->
  (forall a a' b, In a l -> In a' l -> In b (f a) -> In b (f a') -> a = a') -> NoDup (flat_map f l).
Proof.
  induction 1 as [|a l Ha Hl IH]; intros N D; cbn [flat_map]; [constructor|].
  assert (D' : forall b, In b (f a) -> ~ In b (flat_map f l)).
  { intros b H1 H2. apply in_flat_map in H2 as (a' & H3 & H4). apply Ha.
    rewrite (D a a' b (or_introl eq_refl) (or_intror H3) H1 H4). exact H3. }
  assert (R : NoDup (flat_map f l)) by (apply IH; [intros; apply N; right; assumption|intros; eapply D; try right; eassumption]).
  specialize (N a (or_introl eq_refl)). clear - N D' R. induction (f a) as [|b m IHm]; cbn [app]; [exact R|].
  inversion_clear N. constructor.
  - rewrite in_app_iff. intros [?|?]; [contradiction|]. apply (D' b (or_introl eq_refl)). assumption.
  - apply IHm; [assumption|]. intros b' Hb'. apply D'. right. exact Hb'.
Qed.
Lemma search_list_spec C p : (0 <= pr_range C)%Z -> In p (search_list C) <-> in_range C p.
Proof.
  intros R. unfold search_list, in_range. rewrite in_flat_map. split.
  - intros (dx & Hx & H). apply in_flat_map in H as (dy & Hy & H).
    destruct (Z.ltb_spec (pr_range C * pr_range C) (dx * dx + dy * dy)); [contradiction|].
    apply in_map_iff in H as (t & <- & Ht). apply in_range_excl in Ht. cbn [fst snd]. lia.
  - destruct p as [[dx dy] t]. cbn [fst snd]. intros [H Ht]. exists dx. split; [apply in_range_incl; nia|].
    apply in_flat_map. exists dy. split; [apply in_range_incl; nia|].
    destruct (Z.ltb_spec (pr_range C * pr_range C) (dx * dx + dy * dy)); [lia|]. apply in_map_iff. exists t. split; [reflexivity|]. apply in_range_excl. exact Ht.
Qed.
Lemma search_list_NoDup C : NoDup (search_list C).
Proof.
  unfold search_list. apply NoDup_flat_map; [apply range_incl_NoDup| |].
  - intros dx _. apply NoDup_flat_map; [apply range_incl_NoDup| |].
    + intros dy _. destruct (_ <? _)%Z; [constructor|]. apply FinFun.Injective_map_NoDup; [intros t t' E; congruence|apply range_incl_NoDup].
    + intros y y' b _ _. do 2 destruct (_ <? _)%Z; try contradiction. rewrite !in_map_iff. intros (t & <- & _) (t' & E & _). congruence.
  - intros x x' b _ _. rewrite !in_flat_map. intros (y & _ & H) (y' & _ & H'). revert H H'. do 2 destruct (_ <? _)%Z; try contradiction.
    rewrite !in_map_iff. intros (t & <- & _) (t' & E & _). congruence.
Qed.
Lemma foldM_select {A} (f : A -> outcome bool) (P : A -> Prop) l : (forall a, In a l -> exists b, f a = Ok b /\ (b = true <-> P a)) ->
  NoDup l -> forall acc, NoDup acc -> (forall a, In a acc -> ~ In a l) ->
  exists r, foldM (fun l a => do b <- f a; Ok (if b then l ++ [a] else l)) l acc = Ok r /\ NoDup r /\ (forall a, In a r <-> In a acc \/ (In a l /\ P a)).
Proof.
  induction l as [|a l IH]; intros H N acc Na D.
  - exists acc. cbn. repeat split; auto. tauto.
  - inversion_clear N. destruct (H a (or_introl eq_refl)) as (b & E & Eb). cbn [foldM]. rewrite E. cbn [bind].
    destruct (IH (fun a' Ha' => H a' (or_intror Ha')) H1 (if b then acc ++ [a] else acc)) as (r & R1 & R2 & R3).
    + destruct b; [|exact Na]. apply NoDup_rev in Na. rewrite <- (rev_involutive (acc ++ [a])). apply NoDup_rev. rewrite rev_app_distr. cbn. constructor; [|exact Na].
      rewrite <- in_rev. intros Ha. apply (D a Ha). left. reflexivity.
    + intros a' Ha'. destruct b; [apply in_app_iff in Ha' as [Ha'|[<-|[]]]|]; [|assumption|]; intros Hl; apply (D a' Ha'); right; exact Hl.
    + exists r. split; [exact R1|]. split; [exact R2|]. intros a'. rewrite R3. destruct b.
      * rewrite in_app_iff. cbn [In]. split; [intros [[?|[<-|[]]]|[? ?]]; auto; right; split; auto; apply Eb; reflexivity|intros [?|[[<-|?] ?]]; auto].
      * cbn [In]. split; [intros [?|[? ?]]; auto|intros [?|[[<-|?] ?]]; auto]. exfalso. apply Eb in H2. discriminate.
Qed.
Lemma moves_spec C i : sane C -> (0 <= i < pr_angle C)%Z ->
  exists l, moves C i = Ok l /\ NoDup l /\ forall p, In p l <-> in_range C p /\ drivable C i p.
Proof.
  intros S Hi. assert (R : (0 <= pr_range C)%Z) by apply S.
  destruct (foldM_select (keep C i) (drivable C i) (search_list C)) with (acc := @nil prim) as (r & E & N & H).
  - intros p Hp. apply search_list_spec in Hp; [|exact R]. apply keep_spec; assumption.
  - apply search_list_NoDup.
  - constructor.
  - intros a [].
  - exists r. split; [exact E|]. split; [exact N|]. intros p. rewrite H, search_list_spec by exact R. cbn [In]. tauto.
Qed.
Lemma foldM_map {A B} (f : A -> outcome B) l : (forall a, In a l -> exists b, f a = Ok b) -> forall acc,
  exists r, foldM (fun ls a => do b <- f a; Ok (ls ++ [b])) l acc = Ok (acc ++ r) /\ Forall2 (fun a b => f a = Ok b) l r.
Proof.
  induction l as [|a l IH]; intros H acc.
  - exists []. rewrite app_nil_r. split; [reflexivity|constructor].
  - destruct (H a (or_introl eq_refl)) as (b & E). cbn [foldM]. rewrite E. cbn [bind].
    destruct (IH (fun a' Ha' => H a' (or_intror Ha')) (acc ++ [b])) as (r & R1 & R2). exists (b :: r). rewrite R1, <- app_assoc. split; [reflexivity|constructor; assumption].
Qed.

(** *** Theorems *)
(** The list of the moves of heading [i]. *)
Definition moves_from (C : prim_cfg) (i : Z) (l : list prim) : Prop :=
  exists ls, build C = Ok ls /\ nth_error ls (Z.to_nat i) = Some l.

(** For every heading the list exists (no access outside of the cache), names each move once, and has exactly the drivable moves. *)
Theorem C65_moves_are_the_drivable_ones C i : sane C -> (0 <= i < pr_angle C)%Z ->
  exists l, moves_from C i l /\ NoDup l /\ forall p, In p l <-> in_range C p /\ drivable C i p.
Proof.
  intros S Hi. destruct (foldM_map (moves C) (range_excl 0 (pr_angle C))) with (acc := @nil (list prim)) as (ls & E & F).
  - intros j Hj. apply in_range_excl in Hj. destruct (moves_spec C j S Hj) as (l & E & _). eauto.
  - assert (G : forall l m r, Forall2 (fun a b => moves C a = Ok b) l r -> nth_error l m = Some i -> exists b, nth_error r m = Some b /\ moves C i = Ok b).
    { clear. induction l as [|a l IH]; intros [|m] r F Hn; try discriminate; inversion F; subst; cbn in *; [|eapply IH; eassumption].
      injection Hn as <-. eauto. }
    assert (Hn : nth_error (range_excl 0 (pr_angle C)) (Z.to_nat i) = Some i).
    { unfold range_excl, range_incl. rewrite nth_error_map. rewrite (nth_error_nth' _ 0%nat) by (rewrite seq_length; lia).
      rewrite seq_nth by lia. cbn. f_equal. lia. }
    destruct (G _ _ _ F Hn) as (l & H1 & H2). destruct (moves_spec C i S Hi) as (l' & E' & N & H). rewrite E' in H2. injection H2 as <-.
    exists l'. split; [exists ls; split; [exact E|exact H1]|]. split; assumption.
Qed.
Lemma moves_from_iff C i l p : sane C -> (0 <= i < pr_angle C)%Z -> moves_from C i l -> (In p l <-> in_range C p /\ drivable C i p).
Proof.
  intros S Hi (ls & E & H). destruct (C65_moves_are_the_drivable_ones C i S Hi) as (l' & (ls' & E' & H') & _ & G).
  rewrite E in E'. injection E' as <-. rewrite H in H'. injection H' as <-. apply G.
Qed.

(** A point of the circle around [(cx, cy)] with signed radius [r], where the direction of travel is [a]. *)
Definition on_arc (c : R * R) (r a : R) : R * R := (fst c + r * sin a, snd c - r * cos a).
Definition gap (a b : R * R) : R := sqrt ((fst a - fst b) * (fst a - fst b) + (snd a - snd b) * (snd a - snd b)).
Lemma abs_of_sqrt k u v : u * u + v * v = 1 -> sqrt ((k * u) * (k * u) + (k * v) * (k * v)) = Rabs k.
Proof.
  intros H. replace (k * u * (k * u) + k * v * (k * v)) with (Rsqr k) by (unfold Rsqr; replace (k * u * (k * u) + k * v * (k * v)) with (k * k * (u * u + v * v)) by ring; rewrite H; ring).
  apply sqrt_Rsqr_abs.
Qed.

(** Every move that changes place and heading follows a circular arc: it is tangent to both headings, its radius is at least the
    minimum, it turns less than a quarter, its ends are within 3/4 of a cell of the cells, and it is driven forward exactly if the
    end is ahead. *)
Theorem C65_curves_follow_an_arc C i l p : sane C -> (0 <= i < pr_angle C)%Z -> moves_from C i l -> In p l -> fst p <> (0, 0)%Z -> snd p <> 0%Z ->
  exists c r, pr_min_radius C <= Rabs r /\ Rabs (turn_of C p) < PI / 2 /\ 0 < r * turn_of C p * ahead C i p /\
    gap (on_arc c r (heading C i)) (0, 0) < 3 / 4 * pr_lin C /\
    gap (on_arc c r (heading C i + turn_of C p)) (pr_lin C * IZR (fst (fst p)), pr_lin C * IZR (snd (fst p))) < 3 / 4 * pr_lin C.
Proof.
  intros S Hi M Hp Hz Ht. apply (moves_from_iff C i l p S Hi M) in Hp as [Hr D]. destruct D as [[P _]|[(P & _)|D]]; [contradiction|contradiction|].
  destruct D as (_ & _ & T & X & Y & Sg & r1 & r2 & [E1 E2] & Dr & Rm). destruct Hr as [_ Htr].
  pose proof (lin_pos C S) as L.
  assert (SN : sin (turn_of C p) <> 0) by (apply sin_nonzero; [apply turn_nonzero; assumption|lra]).
  set (th := heading C i) in *. set (ph := turn_of C p) in *. set (m := (r1 + r2) / 2).
  exists (- r1 * sin th, r1 * cos th), m. pose proof (sin2_cos2 th) as P1. pose proof (sin2_cos2 (th + ph)) as P2. unfold Rsqr in P1, P2.
  split; [exact Rm|]. split; [lra|].
  assert (Cp : 0 < cos ph) by (apply cos_gt_0; apply Rabs_def2 in T; lra).
  assert (Hs : 0 < sin ph * ph).
  { pose proof PI_RGT_0. apply Rabs_def2 in T. destruct (Rlt_dec 0 ph) as [Q|Q]; [pose proof (sin_gt_0 ph ltac:(lra) ltac:(lra)); nra|].
    assert (ph <> 0) by (intros Q'; rewrite Q', sin_0 in SN; lra). pose proof (sin_lt_0_var ph ltac:(lra) ltac:(lra)). nra. }
  split.
  { fold ph. assert (N2 : r2 <> 0) by (intros Q; rewrite Q in E1; rewrite E1, Rmult_0_l, Rabs_R0 in X; lra).
    assert (U : 0 <= r2 * left_of C i p * (sin ph * ph)) by (rewrite E1 in Sg; lra).
    assert (U2 : 0 <= r2 * left_of C i p) by (destruct (Rle_dec 0 (r2 * left_of C i p)); [assumption|nra]).
    assert (U3 : 0 < r2 * r1). { replace r1 with (left_of C i p + r2 * cos ph) by lra. assert (0 < r2 * r2) by (destruct (Rlt_dec 0 r2); nra). nra. }
    rewrite E1. replace (m * ph * (r2 * sin ph)) with ((r2 * r1 + r2 * r2) / 2 * (sin ph * ph)) by (unfold m; field).
    assert (0 < r2 * r2) by (destruct (Rlt_dec 0 r2); nra). apply Rmult_lt_0_compat; lra. }
  assert (Q : Rabs (m - r1) < 3 / 4 * pr_lin C /\ Rabs (m - r2) < 3 / 4 * pr_lin C).
  { unfold m. split; [replace ((r1 + r2) / 2 - r1) with (- ((r1 - r2) / 2)) by field; rewrite Rabs_Ropp|replace ((r1 + r2) / 2 - r2) with ((r1 - r2) / 2) by field];
      unfold Rdiv; rewrite Rabs_mult, (Rabs_right (/ 2)) by lra; lra. }
  assert (Ex : pr_lin C * IZR (fst (fst p)) = - r1 * sin th + r2 * sin (th + ph)).
  { rewrite sin_plus. unfold ahead, left_of in E1, E2. fold th in E1, E2. set (x := IZR (fst (fst p))) in *. set (y := IZR (snd (fst p))) in *.
    replace (pr_lin C * x) with (pr_lin C * x * (sin th * sin th + cos th * cos th)) by (rewrite P1; ring).
    replace (pr_lin C * x * (sin th * sin th + cos th * cos th)) with (cos th * (pr_lin C * (cos th * x + sin th * y)) - sin th * (pr_lin C * (cos th * y - sin th * x))) by ring.
    rewrite E1, E2. ring. }
  assert (Ey : pr_lin C * IZR (snd (fst p)) = r1 * cos th - r2 * cos (th + ph)).
  { rewrite cos_plus. unfold ahead, left_of in E1, E2. fold th in E1, E2. set (x := IZR (fst (fst p))) in *. set (y := IZR (snd (fst p))) in *.
    replace (pr_lin C * y) with (pr_lin C * y * (sin th * sin th + cos th * cos th)) by (rewrite P1; ring).
    replace (pr_lin C * y * (sin th * sin th + cos th * cos th)) with (sin th * (pr_lin C * (cos th * x + sin th * y)) + cos th * (pr_lin C * (cos th * y - sin th * x))) by ring.
    rewrite E1, E2. ring. }
  unfold gap, on_arc. cbn [fst snd]. rewrite Ex, Ey. split.
  - replace (- r1 * sin th + m * sin th - 0) with ((m - r1) * sin th) by ring. replace (r1 * cos th - m * cos th - 0) with ((m - r1) * - cos th) by ring.
    rewrite abs_of_sqrt by (rewrite <- P1; ring). apply Q.
  - replace (- r1 * sin th + m * sin (th + ph) - (- r1 * sin th + r2 * sin (th + ph))) with ((m - r2) * sin (th + ph)) by ring.
    replace (r1 * cos th - m * cos (th + ph) - (r1 * cos th - r2 * cos (th + ph))) with ((m - r2) * - cos (th + ph)) by ring.
    rewrite abs_of_sqrt by (rewrite <- P2; ring). apply Q.
Qed.

(** A move that keeps the heading deviates from it by the allowed slope only. *)
Theorem C65_straight_moves_keep_the_direction C i l p : sane C -> (0 <= i < pr_angle C)%Z -> moves_from C i l -> In p l -> fst p <> (0, 0)%Z -> snd p = 0%Z ->
  pr_lin C / 2 <= Rabs (ahead C i p) /\ pr_aspect C * Rabs (left_of C i p) <= Rabs (ahead C i p).
Proof.
  intros S Hi M Hp Hz Ht. apply (moves_from_iff C i l p S Hi M) in Hp as [Hr D]. destruct D as [[P _]|[(P & X)|(D & _)]]; [contradiction|exact X|contradiction].
Qed.

(** Turning the map by a quarter turns the moves with it. *)
Definition quarter (p : prim) : prim := (- snd (fst p), fst (fst p), snd p)%Z.
Lemma heading_mod C i k : sane C -> exists n : Z, heading C ((i + k) mod pr_angle C) = heading C i + heading C k - 2 * PI * IZR n.
Proof.
  intros S. exists ((i + k) / pr_angle C)%Z. pose proof (A_pos C S). pose proof (A_posR C S).
  rewrite Z.mod_eq by lia. rewrite heading_minus, heading_plus by exact S. unfold heading. rewrite mult_IZR. field. lra.
Qed.
Lemma cos_turns x n : cos (x - 2 * PI * IZR n) = cos x.
Proof.
  destruct n as [|n|n].
  - f_equal. ring.
  - rewrite <- (cos_period (x - 2 * PI * IZR (Zpos n)) (Pos.to_nat n)). f_equal. rewrite INR_IZR_INZ, positive_nat_Z. ring.
  - rewrite <- (cos_period x (Pos.to_nat n)). f_equal. rewrite INR_IZR_INZ, positive_nat_Z. change (Z.neg n) with (- Z.pos n)%Z. rewrite opp_IZR. ring.
Qed.
Lemma sin_turns x n : sin (x - 2 * PI * IZR n) = sin x.
Proof.
  destruct n as [|n|n].
  - f_equal. ring.
  - rewrite <- (sin_period (x - 2 * PI * IZR (Zpos n)) (Pos.to_nat n)). f_equal. rewrite INR_IZR_INZ, positive_nat_Z. ring.
  - rewrite <- (sin_period x (Pos.to_nat n)). f_equal. rewrite INR_IZR_INZ, positive_nat_Z. change (Z.neg n) with (- Z.pos n)%Z. rewrite opp_IZR. ring.
Qed.
(** What a move is depends on its displacement in the frame of the start heading. *)
Lemma drivable_same C i j p q : ahead C i p = ahead C j q -> left_of C i p = left_of C j q -> snd p = snd q ->
  (fst p = (0, 0)%Z <-> fst q = (0, 0)%Z) -> (fst (fst p) * fst (fst p) + snd (fst p) * snd (fst p) = fst (fst q) * fst (fst q) + snd (fst q) * snd (fst q))%Z ->
  drivable C i p <-> drivable C j q.
Proof.
  intros E1 E2 E3 E4 E5. assert (T : turn_of C p = turn_of C q) by (unfold turn_of; rewrite E3; reflexivity).
  unfold drivable, in_place, straight, curve, centre_at. rewrite E1, E2, E3, E5, T, E4. reflexivity.
Qed.
Theorem C65_same_moves_after_a_quarter_turn C k i l l' p : sane C -> pr_angle C = (4 * k)%Z -> (0 <= i < pr_angle C)%Z ->
  moves_from C i l -> moves_from C ((i + k) mod pr_angle C) l' -> In p l <-> In (quarter p) l'.
Proof.
  intros S Hk Hi M M'. pose proof (A_pos C S) as HA. pose proof (A_posR C S) as HAR.
  rewrite (moves_from_iff C i l p S Hi M), (moves_from_iff C _ l' (quarter p) S (Z.mod_pos_bound _ _ HA) M').
  assert (Hq : heading C k = PI / 2). { unfold heading. rewrite Hk, mult_IZR. assert (IZR k <> 0) by (intros E; rewrite Hk, mult_IZR, E in HAR; lra). field. assumption. }
  destruct (heading_mod C i k S) as [n En]. rewrite Hq in En.
  assert (Cj : cos (heading C ((i + k) mod pr_angle C)) = - sin (heading C i)) by (rewrite En, cos_turns, cos_plus, cos_PI2, sin_PI2; ring).
  assert (Sj : sin (heading C ((i + k) mod pr_angle C)) = cos (heading C i)) by (rewrite En, sin_turns, sin_plus, cos_PI2, sin_PI2; ring).
  rewrite (drivable_same C i ((i + k) mod pr_angle C) p (quarter p)).
  - unfold in_range, quarter. cbn [fst snd]. replace (- snd (fst p) * - snd (fst p) + fst (fst p) * fst (fst p))%Z with (fst (fst p) * fst (fst p) + snd (fst p) * snd (fst p))%Z by ring. reflexivity.
  - unfold ahead, quarter. cbn [fst snd]. rewrite Cj, Sj, opp_IZR. ring.
  - unfold left_of, quarter. cbn [fst snd]. rewrite Cj, Sj, opp_IZR. ring.
  - reflexivity.
  - unfold quarter. cbn [fst snd]. destruct p as [[a b] t]. cbn [fst snd]. split; intros E; injection E as E1 E2; f_equal; lia.
  - unfold quarter. cbn [fst snd]. ring.
Qed.

(** And so does mirroring it. *)
Definition mirror (C : prim_cfg) (p : prim) : prim := (fst (fst p), - snd (fst p), (- snd p) mod pr_angle C)%Z.
Lemma neg_mod t A : (0 < t < A)%Z -> ((- t) mod A = A - t)%Z.
Proof. intros H. symmetry. apply (Z.mod_unique _ _ (-1)); lia. Qed.
Lemma turn_mirror C p : sane C -> (0 <= snd p < pr_angle C)%Z -> turn_of C (mirror C p) = - turn_of C p \/ (turn_of C p = PI /\ turn_of C (mirror C p) = PI).
Proof.
  intros S H. pose proof (heading_0 C S) as H0. pose proof (heading_A C S) as HA. unfold turn_of, mirror. cbn [snd]. destruct (Z.eq_dec (snd p) 0) as [->|N].
  - left. rewrite Z.mod_0_l by lia. destruct (Z.leb_spec (2 * 0) (pr_angle C)); [rewrite H0; ring|lia].
  - rewrite neg_mod by lia.
    destruct (Z.leb_spec (2 * snd p) (pr_angle C)); destruct (Z.leb_spec (2 * (pr_angle C - snd p)) (pr_angle C)).
    + right. assert (Q : (2 * snd p = pr_angle C)%Z) by lia. apply (f_equal (heading C)) in Q. rewrite heading_double, HA in Q by exact S. rewrite heading_minus, HA by exact S. lra.
    + left. rewrite !heading_minus by exact S. ring.
    + left. rewrite !heading_minus by exact S. ring.
    + lia.
Qed.
Lemma in_range_mirror C p : sane C -> in_range C p -> in_range C (mirror C p).
Proof.
  intros S [H1 H2]. pose proof (A_pos C S). split; [cbn [fst snd mirror]|apply Z.mod_pos_bound; assumption]. unfold mirror. cbn [fst snd]. lia.
Qed.
Lemma drivable_mirror C i p : sane C -> (0 <= i < pr_angle C)%Z -> in_range C p -> drivable C i p -> drivable C ((- i) mod pr_angle C) (mirror C p).
Proof.
  intros S Hi [_ Ht] D. pose proof (A_pos C S) as HA.
  destruct (heading_mod C (-i) 0 S) as [n En]. rewrite Z.add_0_r, (heading_0 C S) in En.
  assert (Hn : heading C (- i) = - heading C i). { replace (- i)%Z with (0 - i)%Z by ring. rewrite heading_minus, heading_0 by exact S. ring. }
  rewrite Hn, Rplus_0_r in En.
  assert (X : ahead C ((- i) mod pr_angle C) (mirror C p) = ahead C i p).
  { unfold ahead. rewrite En, cos_turns, sin_turns, cos_neg, sin_neg. unfold mirror. cbn [fst snd]. rewrite opp_IZR. ring. }
  assert (Y : left_of C ((- i) mod pr_angle C) (mirror C p) = - left_of C i p).
  { unfold left_of. rewrite En, cos_turns, sin_turns, cos_neg, sin_neg. unfold mirror. cbn [fst snd]. rewrite opp_IZR. ring. }
  assert (Z0 : snd p <> 0%Z -> snd (mirror C p) <> 0%Z).
  { intros N. unfold mirror. cbn [snd]. rewrite neg_mod by lia. lia. }
  destruct D as [[P1 P2]|[(P1 & P2)|(P1 & P2 & P3 & P4 & P5 & P6 & r1 & r2 & [C1 C2] & P7 & P8)]].
  - left. split; [|apply Z0; exact P2]. unfold mirror. cbn [fst]. destruct p as [[a b] t]. cbn [fst snd] in *. injection P1 as -> ->. reflexivity.
  - right. left. split; [unfold mirror; cbn [snd]; rewrite P1; apply (Z.mod_0_l (pr_angle C)); lia|]. rewrite X, Y, Rabs_Ropp. exact P2.
  - right. right. assert (T : turn_of C (mirror C p) = - turn_of C p).
    { destruct (turn_mirror C p S Ht) as [T|[T _]]; [exact T|]. exfalso. pose proof PI_RGT_0. rewrite T, Rabs_right in P3 by lra. lra. }
    split; [apply Z0; exact P1|]. split; [unfold mirror; cbn [fst snd]; lia|]. rewrite T, X, Y, !Rabs_Ropp. repeat split; try assumption; [lra|].
    exists (- r1), (- r2). unfold centre_at. rewrite T, X, Y, sin_neg, cos_neg, C1, C2. split; [split; ring|].
    replace (- r1 - - r2) with (- (r1 - r2)) by ring. replace ((- r1 + - r2) / 2) with (- ((r1 + r2) / 2)) by field. rewrite !Rabs_Ropp. auto.
Qed.
Lemma mirror_mirror C p : sane C -> (0 <= snd p < pr_angle C)%Z -> mirror C (mirror C p) = p.
Proof.
  intros S H. unfold mirror. cbn [fst snd]. destruct p as [[a b] t]. cbn [fst snd] in *. f_equal; [f_equal; ring|].
  pose proof (A_pos C S).
  destruct (Z.eq_dec t 0) as [->|N]; [reflexivity|].
  rewrite (neg_mod t) by lia. rewrite neg_mod by lia. lia.
Qed.
Theorem C65_same_moves_in_the_mirror C i l l' p : sane C -> (0 <= i < pr_angle C)%Z -> (0 <= snd p < pr_angle C)%Z ->
  moves_from C i l -> moves_from C ((- i) mod pr_angle C) l' -> In p l <-> In (mirror C p) l'.
Proof.
  intros S Hi Hp M M'. pose proof (A_pos C S) as HA. pose proof (Z.mod_pos_bound (- i) _ HA) as Hj.
  rewrite (moves_from_iff C i l p S Hi M), (moves_from_iff C _ l' (mirror C p) S Hj M'). split; intros [H1 H2].
  - split; [apply in_range_mirror; assumption|apply drivable_mirror; assumption].
  - pose proof (in_range_mirror C _ S H1) as G1. rewrite mirror_mirror in G1 by assumption. split; [exact G1|].
    pose proof (drivable_mirror C _ _ S Hj H1 H2) as G2. rewrite mirror_mirror in G2 by assumption.
    replace ((- ((- i) mod pr_angle C)) mod pr_angle C)%Z with i in G2; [exact G2|].
    destruct (Z.eq_dec i 0) as [->|N]; [reflexivity|].
    rewrite (neg_mod i) by lia. rewrite neg_mod by lia. lia.
Qed.

(** *** A concrete case: 16 headings, cells of 10 cm, 5 cells range, minimum radius 20 cm. *)
Definition ex_prim : prim_cfg := PrimCfg (1/10) (PI / 8) 16 5 3 (1/5).
Example ex_prim_sane : sane ex_prim.
Proof. unfold sane, ex_prim. cbn [pr_lin pr_ang pr_angle pr_range]. repeat split; try lia; try lra. Qed.
(** 3 cells ahead, 1 to the left, turning by 45 degrees; the same to the right; straight; not sideways. *)
Example ex_prim_moves l : moves_from ex_prim 0 l ->
  In (3, 1, 2)%Z l /\ In (3, -1, 14)%Z l /\ In (1, 0, 0)%Z l /\ In (0, 0, 5)%Z l /\ ~ In (0, 1, 0)%Z l /\ ~ In (2, 2, 0)%Z l.
Proof.
  intros M. pose proof ex_prim_sane as S.
  assert (H0 : heading ex_prim 0 = 0) by (apply heading_0; exact S).
  assert (I : forall p, In p l <-> in_range ex_prim p /\ drivable ex_prim 0 p) by (intros p; apply moves_from_iff; [exact S|cbn; lia|exact M]).
  assert (A1 : In (3, 1, 2)%Z l).
  { apply I. split; [unfold in_range; cbn; lia|]. right. right.
    assert (T : turn_of ex_prim (3, 1, 2)%Z = PI / 4). { unfold turn_of, ex_prim, heading. cbn [snd pr_angle Z.mul Pos.mul Z.leb Z.compare Pos.compare Pos.compare_cont]. field. }
    assert (X : ahead ex_prim 0 (3, 1, 2)%Z = 3/10). { unfold ahead. rewrite H0, cos_0, sin_0. cbn [fst snd pr_lin ex_prim]. lra. }
    assert (Y : left_of ex_prim 0 (3, 1, 2)%Z = 1/10). { unfold left_of. rewrite H0, cos_0, sin_0. cbn [fst snd pr_lin ex_prim]. lra. }
    pose proof PI2_1 as P. unfold curve, centre_at. rewrite T, X, Y, sin_PI4, cos_PI4. cbn [fst snd pr_lin pr_min_radius ex_prim].
    split; [lia|]. split; [lia|]. rewrite (Rabs_right (PI / 4)), (Rabs_right (3/10)), (Rabs_right (1/10)) by lra.
    split; [lra|]. split; [lra|]. split; [lra|]. split; [nra|].
    assert (Q : 0 < sqrt 2) by (apply sqrt_lt_R0; lra). assert (Q2 : sqrt 2 * sqrt 2 = 2) by (apply sqrt_sqrt; lra).
    assert (Q3 : 1 < sqrt 2 < 3/2) by (split; nra).
    exists (4/10), (3/10 * sqrt 2). split; [split; field; lra|]. split.
    - apply Rabs_def1; lra.
    - rewrite Rabs_right by lra. lra. }
  assert (A2 : In (3, -1, 14)%Z l).
  { change (3, -1, 14)%Z with (mirror ex_prim (3, 1, 2)%Z). apply (C65_same_moves_in_the_mirror ex_prim 0 l l (3, 1, 2)%Z S); [cbn; lia|cbn; lia|exact M|exact M|exact A1]. }
  split; [exact A1|]. split; [exact A2|]. split; [|split; [|split]].
  - apply I. split; [unfold in_range; cbn; lia|]. right. left. unfold straight, ahead, left_of. rewrite H0, cos_0, sin_0. cbn [fst snd pr_lin pr_aspect ex_prim].
    split; [reflexivity|]. replace (1 / 10 * (1 * 0 - 0 * 1)) with 0 by lra. rewrite Rabs_R0. rewrite Rabs_right by lra. lra.
  - apply I. split; [unfold in_range; cbn; lia|]. left. split; [reflexivity|discriminate].
  - intros H. apply I in H as [_ [[P _]|[(_ & P & _)|(P & _)]]]; [discriminate| |apply P; reflexivity].
    unfold ahead in P. rewrite H0, cos_0, sin_0 in P. cbn [fst snd pr_lin ex_prim] in P. replace (1 / 10 * (1 * 0 + 0 * 1)) with 0 in P by lra. rewrite Rabs_R0 in P. lra.
  - intros H. apply I in H as [_ [[P _]|[(_ & _ & P)|(P & _)]]]; [discriminate| |apply P; reflexivity].
    unfold ahead, left_of in P. rewrite H0, cos_0, sin_0 in P. cbn [fst snd pr_lin pr_aspect ex_prim] in P. rewrite !Rabs_right in P by lra. lra.
Qed.

Print Assumptions C65_moves_are_the_drivable_ones.
Print Assumptions C65_curves_follow_an_arc.
Print Assumptions C65_straight_moves_keep_the_direction.
Print Assumptions C65_same_moves_after_a_quarter_turn.
Print Assumptions C65_same_moves_in_the_mirror.
