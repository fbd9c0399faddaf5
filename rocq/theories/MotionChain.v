(** C82, geometry: the cells of each stored motion form a chain of neighbouring cells from the start to the end of the motion. *)
From Coq Require Import QArith Qabs Qreals Reals Lra Lia Psatz ZifyBool.
From Flocq Require Import Core.
From Verif Require Import Common CyclicVec CyclicVecSpec CyclicVecProofs DistMap Path2D Hysteresis HysteresisProps Primitives PrimitivesProps
  MotionCache Cost3D Motion3DSpec Motion3DProofs Cost3DProps MotionReset MotionResetProps.
Local Open Scope R_scope.

(** *** Specification *)
(** Two cells of the 2D map that touch. *)
Definition adjacent (a b : cell) : Prop := (Z.abs (fst a - fst b) <= 1 /\ Z.abs (snd a - snd b) <= 1)%Z.
(** A chain of touching cells with the property [ok]. *)
Inductive chain (ok : cell -> Prop) (a : cell) : cell -> Prop :=
| ch_here : ok a -> chain ok a a
| ch_next u v : chain ok a u -> adjacent u v -> ok v -> chain ok a v.
(** The samples of a curve are its points up to a quarter of a cell (cf. [faithful], which asks for half a cell). *)
Definition sharp (C : prim_cfg) (gres : R) (computed : Z -> vec -> list posef) : Prop :=
  forall i d k p, (0 <= i < pr_angle C)%Z -> In d (stored C) -> straight_page C i d = false -> nth_error (computed i d) k = Some p ->
    Rabs (Q2R (px p) - fst (curve_point C i d (INR k / IZR (total_step gres d)))) <= 1 / 4 /\
    Rabs (Q2R (py p) - snd (curve_point C i d (INR k / IZR (total_step gres d)))) <= 1 / 4.

(** *** Proofs *)
Lemma chain_ok ok a b : chain ok a b -> ok a /\ ok b.
Proof. induction 1; [auto|tauto]. Qed.
Lemma chain_trans ok a b c : chain ok a b -> chain ok b c -> chain ok a c.
Proof. intros H1 H2. induction H2; [exact H1|]. econstructor; eauto. Qed.
Lemma adjacent_sym a b : adjacent a b -> adjacent b a.
Proof. unfold adjacent. lia. Qed.
Lemma chain_sym ok a b : chain ok a b -> chain ok b a.
Proof.
  induction 1 as [|u v H IH Ha Hv]; [constructor; assumption|]. apply (chain_trans ok v u a); [|exact IH].
  econstructor; [constructor; exact Hv|apply adjacent_sym; exact Ha|apply (chain_ok ok a u H)].
Qed.
(** A list of points whose neighbours are less than a cell apart. *)
Lemma lround_close x y : Rabs (Q2R x - Q2R y) < 1 -> (Z.abs (lround x - lround y) <= 1)%Z.
Proof.
  intros H. assert (N : forall q, Rabs (Q2R q - IZR (lround q)) <= 1 / 2).
  { intros q. pose proof (lround_near q) as N. apply Qabs_Qle_condition in N. destruct N as [N1 N2]. apply Qle_Rle in N1, N2.
    rewrite Q2R_minus in N1, N2. rewrite Q2R_opp in N1. assert (I : Q2R (inject_Z (lround q)) = IZR (lround q)) by (unfold Q2R, inject_Z; cbn; lra). rewrite I in *.
    assert (E : Q2R (1 # 2) = 1 / 2) by (unfold Q2R; cbn; lra). rewrite E in *. apply Rabs_le. lra. }
  pose proof (N x) as Nx. pose proof (N y) as Ny. apply Rabs_le_inv in Nx, Ny. apply Rabs_def2 in H.
  assert (A : IZR (lround x - lround y) < 2) by (rewrite minus_IZR; lra). assert (B : -2 < IZR (lround x - lround y)) by (rewrite minus_IZR; lra).
  apply lt_IZR in A. apply (lt_IZR (-2)) in B. lia.
Qed.
Definition xy (c : vec) : cell := (vx c, vy c).
Lemma sampled_chain (ok : cell -> Prop) A (base : cell) : forall (l : list posef) k0, (forall p, In p l -> ok (cadd base (xy (to_cell A p)))) ->
  (forall k p q, nth_error l k = Some p -> nth_error l (k + 1) = Some q -> Rabs (Q2R (px p) - Q2R (px q)) < 1 /\ Rabs (Q2R (py p) - Q2R (py q)) < 1) ->
  hd_error l = Some k0 -> chain ok (cadd base (xy (to_cell A k0))) (cadd base (xy (to_cell A (last l k0)))).
Proof.
  intros l. induction l as [|a l IH] using rev_ind; intros k0 Hok Hd Hh; [discriminate|].
  rewrite last_last. destruct (rev l) as [|b l'] eqn:El.
  - assert (l = []) by (rewrite <- (rev_involutive l), El; reflexivity). subst. injection Hh as ->. constructor. apply Hok. left. reflexivity.
  - assert (Ll : l = rev l' ++ [b]) by (rewrite <- (rev_involutive l), El; reflexivity).
    assert (Hl : last l k0 = b) by (rewrite Ll, last_last; reflexivity).
    apply ch_next with (cadd base (xy (to_cell A b))).
    + rewrite <- Hl. apply IH.
      * intros p Hp. apply Hok, in_or_app. left. exact Hp.
      * intros k p q H1 H2. apply (Hd k p q); (rewrite nth_error_app1; [assumption|apply nth_error_Some; congruence]).
      * rewrite Ll in *. destruct (rev l'); exact Hh.
    + destruct (Hd (length (rev l')) b a) as [D1 D2].
      * rewrite Ll, <- app_assoc, nth_error_app2, Nat.sub_diag by lia. reflexivity.
      * rewrite nth_error_app2 by (rewrite Ll, app_length; cbn; lia). rewrite Ll, app_length. cbn [length]. rewrite Nat.sub_diag. reflexivity.
      * apply lround_close in D1, D2. unfold adjacent, cadd, xy, to_cell. cbn [vx vy nth fst snd]. lia.
    + apply Hok, in_or_app. right. left. reflexivity.
Qed.
(** The sine of an angle up to a right one is at least half of it. *)
Lemma half_le_sin th : Rabs th <= PI / 2 -> Rabs th <= 2 * Rabs (sin th).
Proof.
  assert (P : forall t, 0 <= t <= PI / 2 -> t <= 2 * sin t).
  { intros t Ht. pose proof PI_RGT_0. destruct (Req_dec t 0) as [->|T0]; [rewrite sin_0; lra|].
    destruct (MVT_cor2 sin cos 0 (t / 2) ltac:(lra)) as (x & E & X); [intros; apply derivable_pt_lim_sin|]. rewrite sin_0 in E.
    assert (C1 : cos (t / 2) <= cos x) by (apply cos_decr_1; lra).
    assert (E2 : sin t = 2 * sin (t / 2) * cos (t / 2)) by (rewrite <- sin_2a; f_equal; field).
    assert (E3 : cos t = 2 * (cos (t / 2) * cos (t / 2)) - 1). { replace t with (2 * (t / 2)) at 1 by field. rewrite cos_2a_cos. ring. }
    assert (C2 : 0 <= cos t) by (apply cos_ge_0; lra). assert (C3 : 0 <= cos (t / 2)) by (apply cos_ge_0; lra).
    assert (S1 : t / 2 * cos (t / 2) <= sin (t / 2)) by (replace (sin (t / 2)) with (cos x * (t / 2)) by lra; nra).
    assert (S2 : t * (cos (t / 2) * cos (t / 2)) <= sin t) by (rewrite E2; nra). nra. }
  intros H. unfold Rabs in H. unfold Rabs at 1. destruct (Rcase_abs th) as [N|N].
  - specialize (P (- th)). rewrite sin_neg in P. rewrite <- Rabs_Ropp. eapply Rle_trans; [apply P; lra|]. apply Rmult_le_compat_l; [lra|apply Rle_abs].
  - eapply Rle_trans; [apply P; lra|]. apply Rmult_le_compat_l; [lra|apply Rle_abs].
Qed.
Lemma sin_lip a b : Rabs (sin a - sin b) <= Rabs (a - b).
Proof.
  assert (P : forall a b, a < b -> Rabs (sin b - sin a) <= Rabs (b - a)).
  { clear. intros a b H. destruct (MVT_cor2 sin cos a b H) as (x & -> & _); [intros; apply derivable_pt_lim_sin|]. rewrite Rabs_mult.
    pose proof (COS_bound x). assert (Rabs (cos x) <= 1) by (apply Rabs_le; lra). pose proof (Rabs_pos (b - a)). nra. }
  destruct (Rtotal_order a b) as [H|[->|H]]; [rewrite (Rabs_minus_sym (sin a)), (Rabs_minus_sym a); apply P; exact H|rewrite !Rminus_eq_0, Rabs_R0; lra|apply P; exact H].
Qed.
Lemma cos_lip a b : Rabs (cos a - cos b) <= Rabs (a - b).
Proof. rewrite !cos_sin. replace (a - b) with (PI / 2 + a - (PI / 2 + b)) by ring. apply sin_lip. Qed.

Section Curves.
  Variable C : prim_cfg.
  Hypothesis Sn : sane C.
  Variable gres : R.
  Hypothesis Gr : 0 < gres <= 1 / 10.
  Notation len d := (sqrt (IZR (vx d * vx d + vy d * vy d))).

  (** The steps of a motion are short. *)
  Lemma step_short d : In d (stored C) -> len d / IZR (total_step gres d) <= 2 / 19 /\ 1 <= len d /\ 0 < IZR (total_step gres d).
  Proof.
    intros Hd. apply (stored_spec C Sn) in Hd as (x & y & t & -> & Hz & _ & _). cbn [vx vy nth]. unfold total_step. cbn [vx vy nth]. set (l := sqrt (IZR (x * x + y * y))).
    assert (L1 : 1 <= l). { unfold l. rewrite <- sqrt_1 at 1. apply sqrt_le_1_alt. apply (IZR_le 1). nia. }
    pose proof (lroundR_near (l / gres)) as N. apply Rabs_le_inv in N. set (T := lroundR (l / gres)) in *.
    assert (G10 : 10 * l <= l / gres). { apply (Rmult_le_reg_r gres); [lra|]. replace (l / gres * gres) with l by (field; lra). nra. }
    assert (T0 : 19 / 2 * l <= IZR T) by lra. split; [|split; [exact L1|lra]].
    apply (Rmult_le_reg_r (IZR T)); [lra|]. replace (l / IZR T * IZR T) with l by (field; lra). lra.
  Qed.
  (** A curve the robot can drive: a spiral around the centre of the turn. *)
  Lemma curve_at i p : (0 <= i < pr_angle C)%Z -> in_range C p -> curve C i p ->
    exists r1 r2, centre_at C i p r1 r2 /\ Rabs (r1 - r2) < 3 / 2 * pr_lin C /\
      forall s, curve_point C i (goes C i p) s =
        ((- r1 * sin (heading C i) + (r1 * (1 - s) + r2 * s) * sin (heading C i + s * turn_of C p)) / pr_lin C,
         (r1 * cos (heading C i) - (r1 * (1 - s) + r2 * s) * cos (heading C i + s * turn_of C p)) / pr_lin C).
  Proof.
    intros Hi Hp Hcv. pose proof PI_RGT_0 as Hpi. pose proof (lin_pos C Sn) as L.
    destruct (motion_goes C Sn i p Hi Hp) as (a & Ha & Em & En).
    destruct Hcv as (Ht0 & _ & T & X & Y & Sg & r1 & r2 & Ce & Rd & _). exists r1, r2. split; [exact Ce|]. split; [exact Rd|]. intros s.
    assert (a = turn_of C p) as -> by (destruct Ha as [Ha|[_ Ha]]; [exact Ha|lra]). clear Ha.
    set (th := turn_of C p) in *.
    assert (SN : sin th <> 0) by (apply sin_nonzero; [apply (turn_nonzero C Sn); [apply Hp|exact Ht0]|lra]).
    destruct (centre_unique C i p r1 r2 SN Ce) as [U1 U2]. fold th in U1, U2.
    unfold curve_point. rewrite Em, U1, U2. cbn [goes vx vy vt nth]. rewrite <- En. cbn [fst snd].
    rewrite !(ang_step C Sn).
    assert (Hye : exists n : Z, heading C ((i + snd p) mod pr_angle C) = heading C i + th - 2 * PI * IZR n).
    { destruct (heading_mod C i (snd p) Sn) as [n En']. unfold th, turn_of. destruct (Z.leb_spec (2 * snd p) (pr_angle C)); [exists n; exact En'|].
      exists (n - 1)%Z. rewrite En', (heading_minus C Sn), (heading_A C Sn), minus_IZR. ring. }
    destruct Hye as [n Hye].
    assert (Cp : forall x, cos (x + PI / 2) = - sin x) by (intros; rewrite cos_plus, cos_PI2, sin_PI2; ring).
    assert (Sp : forall x, sin (x + PI / 2) = cos x) by (intros; rewrite sin_plus, cos_PI2, sin_PI2; ring).
    rewrite !Cp, !Sp, Hye, sin_turns, cos_turns. rewrite (sin_plus (heading C i) th), (cos_plus (heading C i) th).
    set (yw := heading C i) in *. pose proof (sin2_cos2 yw) as P1. unfold Rsqr in P1.
    destruct Ce as [Ea El]. fold th in Ea, El. unfold ahead, left_of in Ea, El. fold yw in Ea, El.
    set (dx := IZR (fst (fst p))) in *. set (dy := IZR (snd (fst p))) in *.
    assert (Ex : dx * pr_lin C = cos yw * (r2 * sin th) - sin yw * (r1 - r2 * cos th)).
    { rewrite <- Ea, <- El. replace (dx * pr_lin C) with (dx * pr_lin C * (sin yw * sin yw + cos yw * cos yw)) by (rewrite P1; ring). ring. }
    assert (Ey : dy * pr_lin C = sin yw * (r2 * sin th) + cos yw * (r1 - r2 * cos th)).
    { rewrite <- Ea, <- El. replace (dy * pr_lin C) with (dy * pr_lin C * (sin yw * sin yw + cos yw * cos yw)) by (rewrite P1; ring). ring. }
    rewrite Ex, Ey. f_equal; field; lra.
  Qed.
  Lemma prod_abs x y : Rabs x <= 1 -> Rabs (x * y) <= Rabs y.
  Proof. intros H. rewrite Rabs_mult. pose proof (Rabs_pos y). nra. Qed.
  Lemma sin_abs x : Rabs (sin x) <= 1.
  Proof. pose proof (SIN_bound x). apply Rabs_le. lra. Qed.
  Lemma cos_abs x : Rabs (cos x) <= 1.
  Proof. pose proof (COS_bound x). apply Rabs_le. lra. Qed.
  (** Its speed is bounded by its length. *)
  Lemma curve_speed i p s1 s2 : (0 <= i < pr_angle C)%Z -> in_range C p -> curve C i p -> 0 <= s1 <= 1 -> 0 <= s2 <= 1 ->
    Rabs (fst (curve_point C i (goes C i p) s1) - fst (curve_point C i (goes C i p) s2)) <= Rabs (s1 - s2) * (5 / 2 * len (goes C i p)) /\
    Rabs (snd (curve_point C i (goes C i p) s1) - snd (curve_point C i (goes C i p) s2)) <= Rabs (s1 - s2) * (5 / 2 * len (goes C i p)).
  Proof.
    intros Hi Hp Hcv H1 H2. pose proof (lin_pos C Sn) as L. destruct (curve_at i p Hi Hp Hcv) as (r1 & r2 & Ce & Rd & V). rewrite !V. cbn [fst snd]. clear V.
    destruct Hcv as (_ & H9 & T & _). cbn [goes vx vy nth]. set (l := sqrt (IZR (fst (fst p) * fst (fst p) + snd (fst p) * snd (fst p)))).
    assert (L3 : 3 <= l). { unfold l. replace 3 with (sqrt (3 * 3)) by (apply sqrt_square; lra). apply sqrt_le_1_alt. replace (3 * 3) with 9 by ring. apply (IZR_le 9). exact H9. }
    assert (Ll : l * l = IZR (fst (fst p) * fst (fst p) + snd (fst p) * snd (fst p))) by (apply sqrt_sqrt; apply (IZR_le 0); lia).
    set (yw := heading C i) in *. set (th := turn_of C p) in *.
    (* the radii times the turn *)
    assert (Len : ahead C i p * ahead C i p + left_of C i p * left_of C i p = (pr_lin C * l) * (pr_lin C * l)).
    { unfold ahead, left_of. fold yw. replace (pr_lin C * l * (pr_lin C * l)) with (pr_lin C * pr_lin C * (l * l)) by ring. rewrite Ll, plus_IZR, !mult_IZR.
      pose proof (sin2_cos2 yw) as P1. unfold Rsqr in P1. set (dx := IZR (fst (fst p))). set (dy := IZR (snd (fst p))).
      replace (pr_lin C * pr_lin C * (dx * dx + dy * dy)) with (pr_lin C * pr_lin C * ((sin yw * sin yw + cos yw * cos yw) * (dx * dx + dy * dy))) by (rewrite P1; ring). ring. }
    destruct Ce as [Ea El]. fold th in Ea, El. set (ah := ahead C i p) in *. set (lf := left_of C i p) in *.
    assert (B0 : 0 <= pr_lin C * l) by nra.
    assert (Sq : forall x b, 0 <= b -> x * x <= b * b -> Rabs x <= b). { intros x b Hb Hx. apply Rabs_le. split; nra. }
    assert (R2 : Rabs (r2 * sin th) <= pr_lin C * l). { rewrite <- Ea. apply Sq; [exact B0|]. pose proof (Rle_0_sqr lf). unfold Rsqr in *. lra. }
    assert (R1 : Rabs (r1 * sin th) <= pr_lin C * l).
    { replace (r1 * sin th) with (ah * cos th + lf * sin th) by (rewrite Ea, El; ring). apply Sq; [exact B0|]. rewrite <- Len.
      pose proof (sin2_cos2 th) as P2. unfold Rsqr in P2. pose proof (Rle_0_sqr (ah * sin th - lf * cos th)) as Q. unfold Rsqr in Q.
      replace (ah * ah + lf * lf) with ((sin th * sin th + cos th * cos th) * (ah * ah + lf * lf)) by (rewrite P2; ring).
      apply Rminus_le. replace ((ah * cos th + lf * sin th) * (ah * cos th + lf * sin th) - (sin th * sin th + cos th * cos th) * (ah * ah + lf * lf))
        with (- ((ah * sin th - lf * cos th) * (ah * sin th - lf * cos th))) by ring. lra. }
    assert (Hs : Rabs th <= 2 * Rabs (sin th)) by (apply half_le_sin; lra).
    assert (W : forall r, Rabs (r * sin th) <= pr_lin C * l -> Rabs (r * th) <= 2 * (pr_lin C * l)).
    { intros r Hr. rewrite Rabs_mult in *. pose proof (Rabs_pos r). nra. }
    apply W in R1, R2. assert (Rs : forall s, 0 <= s <= 1 -> Rabs ((r1 * (1 - s) + r2 * s) * th) <= 2 * (pr_lin C * l)).
    { intros s Hs'. replace ((r1 * (1 - s) + r2 * s) * th) with ((1 - s) * (r1 * th) + s * (r2 * th)) by ring. apply Rabs_le_inv in R1, R2. apply Rabs_le. split; nra. }
    assert (Bd : forall (f : R -> R), (forall x, Rabs (f x) <= 1) -> (forall x y, Rabs (f x - f y) <= Rabs (x - y)) ->
      Rabs ((r1 * (1 - s1) + r2 * s1) * f (yw + s1 * th) - (r1 * (1 - s2) + r2 * s2) * f (yw + s2 * th)) <= Rabs (s1 - s2) * (5 / 2 * l) * pr_lin C).
    { intros f F1 F2.
      replace ((r1 * (1 - s1) + r2 * s1) * f (yw + s1 * th) - (r1 * (1 - s2) + r2 * s2) * f (yw + s2 * th))
        with (f (yw + s1 * th) * ((s1 - s2) * (r2 - r1)) + (r1 * (1 - s2) + r2 * s2) * (f (yw + s1 * th) - f (yw + s2 * th))) by ring.
      eapply Rle_trans; [apply Rabs_triang|]. pose proof (prod_abs _ ((s1 - s2) * (r2 - r1)) (F1 (yw + s1 * th))) as A1.
      assert (A2 : Rabs ((r1 * (1 - s2) + r2 * s2) * (f (yw + s1 * th) - f (yw + s2 * th))) <= Rabs (s1 - s2) * (2 * (pr_lin C * l))).
      { rewrite Rabs_mult. pose proof (F2 (yw + s1 * th) (yw + s2 * th)) as A3. replace (yw + s1 * th - (yw + s2 * th)) with ((s1 - s2) * th) in A3 by ring.
        rewrite Rabs_mult in A3. pose proof (Rs s2 H2) as A4. rewrite Rabs_mult in A4. set (q := Rabs (r1 * (1 - s2) + r2 * s2)) in *.
        apply Rle_trans with (q * (Rabs (s1 - s2) * Rabs th)); [apply Rmult_le_compat_l; [apply Rabs_pos|exact A3]|].
        replace (q * (Rabs (s1 - s2) * Rabs th)) with (Rabs (s1 - s2) * (q * Rabs th)) by ring. apply Rmult_le_compat_l; [apply Rabs_pos|exact A4]. }
      assert (A5 : Rabs (s1 - s2) * Rabs (r2 - r1) <= Rabs (s1 - s2) * (1 / 2 * l * pr_lin C)). { apply Rmult_le_compat_l; [apply Rabs_pos|]. rewrite Rabs_minus_sym. nra. }
      rewrite (Rabs_mult (s1 - s2)) in A1. lra. }
    assert (Dv : forall x k, Rabs x <= k * pr_lin C -> Rabs (x / pr_lin C) <= k).
    { intros x k Hx. unfold Rdiv. rewrite Rabs_mult, (Rabs_right (/ pr_lin C)) by (apply Rle_ge; left; apply Rinv_0_lt_compat; lra).
      apply (Rmult_le_reg_r (pr_lin C)); [lra|]. rewrite Rmult_assoc, Rinv_l by lra. lra. }
    split.
    - match goal with |- Rabs (?a / ?q - ?b / ?q) <= _ => replace (a / q - b / q) with ((a - b) / q) by (field; lra) end. apply Dv.
      match goal with |- Rabs (?a + ?b - (?a + ?c)) <= _ => replace (a + b - (a + c)) with (b - c) by ring end. apply (Bd sin); [apply sin_abs|apply sin_lip].
    - match goal with |- Rabs (?a / ?q - ?b / ?q) <= _ => replace (a / q - b / q) with ((a - b) / q) by (field; lra) end. apply Dv.
      match goal with |- Rabs (?a - ?b - (?a - ?c)) <= _ => replace (a - b - (a - c)) with (- (b - c)) by ring end. rewrite Rabs_Ropp. apply (Bd cos); [apply cos_abs|apply cos_lip].
  Qed.
End Curves.

(** *** The cells of a motion *)
Lemma last_nth {A} (l : list A) d : l <> [] -> nth_error l (length l - 1) = Some (last l d).
Proof.
  destruct l as [|a l] using rev_ind; [congruence|]. intros _. rewrite last_last, app_length. cbn [length].
  rewrite nth_error_app2 by lia. replace (length l + 1 - 1 - length l)%nat with 0%nat by lia. reflexivity.
Qed.
Lemma nth_samples i d T k p : nth_error (straight_samples i d T) k = Some p -> (0 < T)%Z ->
  (Z.of_nat k < T)%Z /\ Q2R (px p) = IZR (vx d) * (INR k / IZR T) /\ Q2R (py p) = IZR (vy d) * (INR k / IZR T).
Proof.
  unfold straight_samples, range_excl, range_incl. rewrite !nth_error_map. intros H HT.
  destruct (nth_error (seq 0 _) k) as [n|] eqn:E; [|discriminate]. cbn [option_map] in H.
  assert (K : (k < Z.to_nat (T - 1 - 0 + 1))%nat) by (rewrite <- (seq_length (Z.to_nat (T - 1 - 0 + 1)) 0); apply nth_error_Some; congruence).
  assert (n = k) as ->. { apply nth_error_nth with (d := 0%nat) in E. rewrite seq_nth in E by exact K. lia. }
  injection H as <-. cbn [px py]. split; [lia|]. assert (G : forall z, Q2R (inject_Z z * (0 + Z.of_nat k # Z.to_pos T)) = IZR z * (INR k / IZR T)).
  { intros z. rewrite Q2R_mult. unfold Q2R at 1 2. cbn [Qnum Qden inject_Z]. rewrite Z2Pos.id by exact HT. rewrite INR_IZR_INZ, Z.add_0_l. field. intros E0. apply eq_IZR in E0. lia. }
  split; apply G.
Qed.
Section Page.
  Variables (C : prim_cfg) (gres ires : R) (computed : Z -> vec -> list posef).
  Hypothesis Sn : sane C.
  Hypothesis Gr : 0 < gres <= 1 / 10.
  Hypothesis Fa : faithful C gres computed.
  Hypothesis Sh : sharp C gres computed.
  Notation samples i d := (if straight_page C i d then straight_samples i d (total_step gres d) else computed i d).

  Lemma ratio_diff k T : 0 < T -> Rabs (INR k / T - INR (k + 1) / T) = / T.
  Proof. intros HT. rewrite plus_INR. replace (INR k / T - (INR k + INR 1) / T) with (- / T) by (cbn [INR]; field; lra). rewrite Rabs_Ropp. apply Rabs_right. apply Rle_ge. left. apply Rinv_0_lt_compat, HT. Qed.
  Lemma coord_le x y : Rabs (IZR x) <= sqrt (IZR (x * x + y * y)) /\ Rabs (IZR y) <= sqrt (IZR (x * x + y * y)).
  Proof.
    split; (rewrite <- sqrt_Rsqr_abs; apply sqrt_le_1_alt; unfold Rsqr; rewrite <- mult_IZR; apply IZR_le; nia).
  Qed.
  (** Samples close to each other, the first at the start, the last near the end. *)
  Lemma samples_close i p : (0 <= i < pr_angle C)%Z -> in_range C p -> fst p <> (0, 0)%Z -> drivable C i p \/ snd p = 0%Z ->
    (exists q rest, samples i (goes C i p) = q :: rest /\ px q == 0 /\ py q == 0)%Q /\
    (forall k a b, nth_error (samples i (goes C i p)) k = Some a -> nth_error (samples i (goes C i p)) (k + 1) = Some b ->
      Rabs (Q2R (px a) - Q2R (px b)) < 1 /\ Rabs (Q2R (py a) - Q2R (py b)) < 1) /\
    (forall z, Rabs (Q2R (px (last (samples i (goes C i p)) z)) - IZR (fst (fst p))) < 1 /\ Rabs (Q2R (py (last (samples i (goes C i p)) z)) - IZR (snd (fst p))) < 1).
  Proof.
    intros Hi Hp Hz Hd. set (d := goes C i p).
    assert (Hst : In d (stored C)).
    { apply (stored_spec C Sn). exists (fst (fst p)), (snd (fst p)), ((i + snd p) mod pr_angle C)%Z. split; [reflexivity|]. split.
      - destruct p as [[x y] t]. cbn [fst snd] in *. destruct (Z.eq_dec x 0) as [->|]; [|left; assumption]. right. intros ->. apply Hz. reflexivity.
      - split; [apply Hp|]. apply Z.mod_pos_bound. apply Sn. }
    destruct (step_short C Sn gres Gr d Hst) as (St & L1 & T0). set (T := total_step gres d) in *. set (l := sqrt (IZR (vx d * vx d + vy d * vy d))) in *.
    assert (T0' : (0 < T)%Z) by (apply lt_IZR; exact T0).
    destruct (coord_le (vx d) (vy d)) as [Lx Ly]. fold l in Lx, Ly.
    assert (G2 : total_step gres d = T) by reflexivity.
    assert (Two : (2 <= T)%Z) by (apply (total_two C Sn gres); [lra|exact Hst]).
    assert (Stp : / IZR T * l <= 2 / 19) by (unfold Rdiv in St; rewrite Rmult_comm; exact St).
    destruct (straight_page C i d) eqn:Es.
    - set (sm := straight_samples i d T).
      assert (Ln : length sm = Z.to_nat T) by (unfold sm, straight_samples, range_excl, range_incl; rewrite !map_length, seq_length; lia).
      assert (Nt : forall k a, nth_error sm k = Some a -> Q2R (px a) = IZR (vx d) * (INR k / IZR T) /\ Q2R (py a) = IZR (vy d) * (INR k / IZR T)) by (intros k a Ha; apply (nth_samples _ _ _ _ _ Ha T0')).
      split; [|split].
      + unfold sm, straight_samples, range_excl, range_incl. replace (Z.to_nat (T - 1 - 0 + 1)) with (Datatypes.S (Z.to_nat (T - 1))) by lia. cbn [seq map].
        eexists _, _. split; [reflexivity|]. cbn [px py]. split; unfold Qeq, Qmult, inject_Z; cbn; lia.
      + intros k a b Ha Hb. apply Nt in Ha as [-> ->]. apply Nt in Hb as [-> ->]. rewrite <- !Rmult_minus_distr_l, !Rabs_mult, ratio_diff by exact T0.
        assert (0 <= / IZR T) by (left; apply Rinv_0_lt_compat; exact T0). split; nra.
      + intros z. assert (sm <> []) by (intros E; rewrite E in Ln; cbn in Ln; lia). pose proof (last_nth sm z H) as E. apply Nt in E as [-> ->]. rewrite Ln.
        assert (E1 : forall w, IZR w * (INR (Z.to_nat T - 1) / IZR T) - IZR w = - (IZR w * / IZR T)).
        { intros w. rewrite minus_INR by lia. rewrite INR_IZR_INZ, Z2Nat.id by lia. cbn [INR]. field. lra. }
        change (fst (fst p)) with (vx d). change (snd (fst p)) with (vy d). rewrite !E1, !Rabs_Ropp, !Rabs_mult, (Rabs_right (/ IZR T)) by (apply Rle_ge; left; apply Rinv_0_lt_compat; exact T0).
        assert (0 <= / IZR T) by (left; apply Rinv_0_lt_compat; exact T0). split; nra.
    - (* a curve *)
      assert (Cv : curve C i p).
      { destruct Hd as [[[Hd _]|[Hd|Hd]]|Hd]; [destruct (Hz Hd)| |exact Hd|].
        - exfalso. destruct Hd as [Hd _]. revert Es. unfold straight_page. destruct (motion_goes C Sn i p Hi Hp) as (a & Ha & Em & _). unfold d. rewrite Em. destruct (Rlt_dec _ _) as [|N]; [discriminate|].
          intros _. apply N. assert (Tz : turn_of C p = 0) by (unfold turn_of; rewrite Hd; destruct (Z.leb_spec (2 * 0) (pr_angle C)); [unfold heading; rewrite Rmult_0_r; unfold Rdiv; ring|pose proof (A_pos C Sn); lia]).
          rewrite Tz in Ha. destruct Ha as [->|[_ Ha]]; [rewrite sin_0, Rabs_R0; lra|rewrite Rabs_R0 in Ha; pose proof PI_RGT_0; lra].
        - exfalso. revert Es. unfold straight_page. destruct (motion_goes C Sn i p Hi Hp) as (a & Ha & Em & _). unfold d. rewrite Em. destruct (Rlt_dec _ _) as [|N]; [discriminate|].
          intros _. apply N. assert (Tz : turn_of C p = 0) by (unfold turn_of; rewrite Hd; destruct (Z.leb_spec (2 * 0) (pr_angle C)); [unfold heading; rewrite Rmult_0_r; unfold Rdiv; ring|pose proof (A_pos C Sn); lia]).
          rewrite Tz in Ha. destruct Ha as [->|[_ Ha]]; [rewrite sin_0, Rabs_R0; lra|rewrite Rabs_R0 in Ha; pose proof PI_RGT_0; lra]. }
      destruct (Fa i d Hi Hst Es) as (Ln & (q & rest & E0 & Q1 & Q2 & _) & _). rewrite G2 in Ln. pose proof (Sh i d) as Sp. rewrite G2 in Sp.
      assert (K01 : forall k, (Z.of_nat k <= T)%Z -> 0 <= INR k / IZR T <= 1).
      { intros k Hk. split; [apply Rmult_le_pos; [apply pos_INR|left; apply Rinv_0_lt_compat; exact T0]|]. apply (Rmult_le_reg_r (IZR T)); [exact T0|].
        replace (INR k / IZR T * IZR T) with (INR k) by (field; lra). rewrite INR_IZR_INZ, Rmult_1_l. apply IZR_le. exact Hk. }
      split; [exists q, rest; auto|split].
      + intros k a b Ha Hb. assert (Kb : (k + 1 < length (computed i d))%nat) by (apply nth_error_Some; congruence).
        destruct (Sp k a Hi Hst Es Ha) as [A1 A2]. destruct (Sp (k + 1)%nat b Hi Hst Es Hb) as [B1 B2].
        destruct (curve_speed C Sn i p (INR k / IZR T) (INR (k + 1) / IZR T) Hi Hp Cv ltac:(apply K01; lia) ltac:(apply K01; lia)) as [V1 V2].
        rewrite ratio_diff in V1, V2 by exact T0. fold d in V1, V2. fold l in V1, V2.
        apply Rabs_le_inv in A1, A2, B1, B2, V1, V2. split; apply Rabs_def1; lra.
      + intros z. assert (Hn : computed i d <> []) by (rewrite E0; discriminate). pose proof (last_nth (computed i d) z Hn) as E. rewrite Ln in E.
        destruct (Sp _ _ Hi Hst Es E) as [A1 A2].
        destruct (curve_speed C Sn i p (INR (Z.to_nat T - 1) / IZR T) 1 Hi Hp Cv ltac:(apply K01; lia) ltac:(lra)) as [V1 V2].
        assert (E1 : Rabs (INR (Z.to_nat T - 1) / IZR T - 1) = / IZR T).
        { rewrite minus_INR by lia. rewrite INR_IZR_INZ, Z2Nat.id by lia. replace ((IZR T - INR 1) / IZR T - 1) with (- / IZR T) by (cbn [INR]; field; lra).
          rewrite Rabs_Ropp. apply Rabs_right. apply Rle_ge. left. apply Rinv_0_lt_compat, T0. }
        rewrite E1 in V1, V2. fold d in V1, V2. fold l in V1, V2.
        assert (End : curve_point C i d 1 = (IZR (fst (fst p)), IZR (snd (fst p)))).
        { pose proof (lin_pos C Sn) as Lp. destruct (curve_at C Sn i p Hi Hp Cv) as (r1 & r2 & Ce & _ & V). fold d in V. rewrite V. rewrite Rmult_1_l.
          set (yw := heading C i) in *. set (th := turn_of C p) in *. destruct Ce as [Ea El]. fold th in Ea, El. unfold ahead, left_of in Ea, El. fold yw in Ea, El.
          pose proof (sin2_cos2 yw) as P1. unfold Rsqr in P1. set (dx := IZR (fst (fst p))) in *. set (dy := IZR (snd (fst p))) in *.
          rewrite sin_plus, cos_plus.
          assert (Ex : dx * pr_lin C = cos yw * (r2 * sin th) - sin yw * (r1 - r2 * cos th)).
          { rewrite <- Ea, <- El. replace (dx * pr_lin C) with (dx * pr_lin C * (sin yw * sin yw + cos yw * cos yw)) by (rewrite P1; ring). ring. }
          assert (Ey : dy * pr_lin C = sin yw * (r2 * sin th) + cos yw * (r1 - r2 * cos th)).
          { rewrite <- Ea, <- El. replace (dy * pr_lin C) with (dy * pr_lin C * (sin yw * sin yw + cos yw * cos yw)) by (rewrite P1; ring). ring. }
          f_equal; (apply (Rmult_eq_reg_r (pr_lin C)); [|lra]); [rewrite Ex|rewrite Ey]; field; lra. }
        rewrite End in V1, V2. cbn [fst snd] in V1, V2. apply Rabs_le_inv in A1, A2, V1, V2. split; apply Rabs_def1; lra.
  Qed.
  (** The cells of the motion lead from its start to its end. *)
  Lemma page_chain (ok : cell -> Prop) (base : cell) i p : (0 <= i < pr_angle C)%Z -> in_range C p -> fst p <> (0, 0)%Z -> drivable C i p \/ snd p = 0%Z ->
    (forall c, In c (goes C i p :: pg_motion (page_of C gres ires computed i (goes C i p))) -> ok (cadd base (xy c))) ->
    chain ok base (cadd base (fst p)).
  Proof.
    intros Hi Hp Hz Hd Hok. destruct (samples_close i p Hi Hp Hz Hd) as ((q & rest & Es & Q1 & Q2) & Cl & La). set (d := goes C i p) in *.
    set (sm := if straight_page C i d then straight_samples i d (total_step gres d) else computed i d) in *.
    assert (Cells : forall s, In s sm -> ok (cadd base (xy (to_cell (pr_angle C) s)))).
    { intros s Hs. apply Hok. unfold page_of. fold sm. unfold build_page. apply build_loop_cells; [intros c [<-|[]]; left; reflexivity|exact Hs]. }
    pose proof (sampled_chain ok (pr_angle C) base sm q Cells Cl ltac:(rewrite Es; reflexivity)) as H.
    assert (L0 : forall x, (x == 0)%Q -> lround x = 0%Z).
    { intros x Hx. assert (A1 : (lround x <= lround 0)%Z) by (apply lround_mono; rewrite Hx; apply Qle_refl). assert (A2 : (lround 0 <= lround x)%Z) by (apply lround_mono; rewrite Hx; apply Qle_refl). change (lround 0) with 0%Z in *. lia. }
    assert (E0 : cadd base (xy (to_cell (pr_angle C) q)) = base). { unfold cadd, xy, to_cell. cbn [vx vy nth fst snd]. rewrite (L0 _ Q1), (L0 _ Q2). destruct base. cbn [fst snd]. f_equal; lia. }
    rewrite E0 in H. apply ch_next with (1 := H).
    - destruct (La q) as [L1 L2]. set (e := last sm q) in *.
      assert (G : forall x z, Rabs (Q2R x - IZR z) < 1 -> (Z.abs (lround x - z) <= 1)%Z).
      { intros x z Hx. assert (lround (inject_Z z) = z) as <-.
        { pose proof (lround_le_R (inject_Z z) (IZR z) z) as U. pose proof (lround_ge_R (inject_Z z) (IZR z) z) as V.
          assert (I : Q2R (inject_Z z) = IZR z) by (unfold Q2R, inject_Z; cbn; lra). rewrite I in U, V. specialize (U ltac:(lra) ltac:(lra)). specialize (V ltac:(lra) ltac:(lra)). lia. }
        apply lround_close. replace (Q2R (inject_Z z)) with (IZR z) by (unfold Q2R, inject_Z; cbn; lra). exact Hx. }
      apply G in L1, L2. unfold adjacent, cadd, xy, to_cell. cbn [vx vy nth fst snd]. lia.
    - assert (E : cadd base (fst p) = cadd base (xy d)) by reflexivity. rewrite E. apply Hok. left. reflexivity.
  Qed.
End Page.
