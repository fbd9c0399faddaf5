(** IEEE-754 arithmetic (Flocq's BinarySingleNaN) seen through one monotone key:
    finite numbers map to their real value, infinities to plus/minus 2^emax. *)
From Coq Require Import ZArith Reals Lra Lia Bool Psatz.
From Flocq Require Import Core.Core Core.Raux IEEE754.BinarySingleNaN.
Local Open Scope R_scope.

Section F.
  Variables prec emax : Z.
  Context (Hprec : Prec_gt_0 prec) (Hmax : Prec_lt_emax prec emax).
  Notation fl := (binary_float prec emax).
  Notation fexp := (SpecFloat.fexp prec emax).
  Notation M := (bpow radix2 emax).
  Notation rnd := (round radix2 fexp ZnearestE).
  Definition nan (x : fl) : bool := is_nan x.
  Definition key (x : fl) : R :=
    match x with
    | B754_infinity s => if s then - M else M
    | _ => B2R x
    end.

  Lemma M_pos : 0 < M.
  Proof. apply bpow_gt_0. Qed.

  Lemma finite_key (x : fl) : is_finite x = true -> key x = B2R x.
  Proof. destruct x; simpl; try discriminate; reflexivity. Qed.
  Lemma finite_lt (x : fl) : is_finite x = true -> - M < B2R x < M.
  Proof.
    intros H. pose proof (abs_B2R_lt_emax prec emax x) as A. apply Rabs_def2 in A. lra.
  Qed.
  Lemma key_bounds (x : fl) : - M <= key x <= M.
  Proof.
    pose proof M_pos. destruct (is_finite x) eqn:E.
    - rewrite finite_key by exact E. pose proof (finite_lt x E). lra.
    - destruct x as [|[]| |]; try discriminate; simpl; lra.
  Qed.
  Lemma finite_iff (x : fl) : nan x = false -> (is_finite x = true <-> - M < key x < M).
  Proof.
    intros Hn. split.
    - intros H. rewrite finite_key by exact H. apply finite_lt. exact H.
    - pose proof M_pos. destruct x as [|[]| |]; simpl in *; try discriminate; try reflexivity; lra.
  Qed.

  Lemma ltb_key (a b : fl) : Bltb a b = negb (nan a) && negb (nan b) && Rlt_bool (key a) (key b).
  Proof.
    destruct (is_finite a) eqn:Fa, (is_finite b) eqn:Fb.
    - rewrite (Bltb_correct prec emax a b Fa Fb), !finite_key by assumption.
      destruct a, b; try discriminate; reflexivity.
    - pose proof (finite_lt a Fa) as Ha. pose proof M_pos. rewrite (finite_key a Fa).
      destruct b as [|[]| |]; try discriminate; destruct a as [|[]| |[]]; try discriminate; simpl in *;
        try reflexivity; symmetry; try (apply Rlt_bool_false; lra); apply Rlt_bool_true; lra.
    - pose proof (finite_lt b Fb) as Hb. pose proof M_pos. rewrite (finite_key b Fb).
      destruct a as [|[]| |]; try discriminate; destruct b as [|[]| |[]]; try discriminate; simpl in *;
        try reflexivity; symmetry; try (apply Rlt_bool_false; lra); apply Rlt_bool_true; lra.
    - pose proof M_pos.
      destruct a as [|[]| |]; try discriminate; destruct b as [|[]| |]; try discriminate; simpl in *;
        try reflexivity; symmetry; try (apply Rlt_bool_false; lra); apply Rlt_bool_true; lra.
  Qed.

  Lemma leb_key (a b : fl) : Bleb a b = negb (nan a) && negb (nan b) && Rle_bool (key a) (key b).
  Proof.
    destruct (is_finite a) eqn:Fa, (is_finite b) eqn:Fb.
    - rewrite (Bleb_correct prec emax a b Fa Fb), !finite_key by assumption.
      destruct a, b; try discriminate; reflexivity.
    - pose proof (finite_lt a Fa) as Ha. pose proof M_pos. rewrite (finite_key a Fa).
      destruct b as [|[]| |]; try discriminate; destruct a as [|[]| |[]]; try discriminate; simpl in *;
        try reflexivity; symmetry; try (apply Rle_bool_false; lra); apply Rle_bool_true; lra.
    - pose proof (finite_lt b Fb) as Hb. pose proof M_pos. rewrite (finite_key b Fb).
      destruct a as [|[]| |]; try discriminate; destruct b as [|[]| |[]]; try discriminate; simpl in *;
        try reflexivity; symmetry; try (apply Rle_bool_false; lra); apply Rle_bool_true; lra.
    - pose proof M_pos.
      destruct a as [|[]| |]; try discriminate; destruct b as [|[]| |]; try discriminate; simpl in *;
        try reflexivity; symmetry; try (apply Rle_bool_false; lra); apply Rle_bool_true; lra.
  Qed.

  Lemma ltb_true (a b : fl) : Bltb a b = true <-> nan a = false /\ nan b = false /\ key a < key b.
  Proof.
    rewrite ltb_key, !andb_true_iff, !negb_true_iff. split.
    - intros [[H1 H2] H3]. repeat split; auto. revert H3. case Rlt_bool_spec; [auto|discriminate].
    - intros (H1 & H2 & H3). repeat split; auto. apply Rlt_bool_true. exact H3.
  Qed.
  Lemma leb_true (a b : fl) : Bleb a b = true <-> nan a = false /\ nan b = false /\ key a <= key b.
  Proof.
    rewrite leb_key, !andb_true_iff, !negb_true_iff. split.
    - intros [[H1 H2] H3]. repeat split; auto. revert H3. case Rle_bool_spec; [auto|discriminate].
    - intros (H1 & H2 & H3). repeat split; auto. apply Rle_bool_true. exact H3.
  Qed.
  Lemma ltb_false (a b : fl) : Bltb a b = false <-> nan a = true \/ nan b = true \/ key b <= key a.
  Proof.
    destruct (Bltb a b) eqn:E.
    - apply ltb_true in E. destruct E as (H1 & H2 & H3). split; [discriminate|].
      intros [H|[H|H]]; [congruence|congruence|lra].
    - split; [intros _|reflexivity]. destruct (nan a) eqn:Na; [auto|]. destruct (nan b) eqn:Nb; [auto|].
      right. right. destruct (Rle_lt_dec (key b) (key a)) as [H|H]; [exact H|].
      exfalso. assert (Bltb a b = true) by (apply ltb_true; auto). congruence.
  Qed.

  Definition clampM (x : R) : R := Rmax (- M) (Rmin M x).
  Lemma clampM_id x : - M <= x <= M -> clampM x = x.
  Proof. intros H. unfold clampM. rewrite Rmin_right by lra. apply Rmax_right. lra. Qed.
  Lemma clampM_mono x y : x <= y -> clampM x <= clampM y.
  Proof.
    intros H. unfold clampM. apply Rle_max_compat_l. apply Rle_min_compat_l. exact H.
  Qed.
  Lemma clampM_big x : M <= x -> clampM x = M.
  Proof. intros H. pose proof M_pos. unfold clampM. rewrite Rmin_left by lra. apply Rmax_right. lra. Qed.
  Lemma clampM_small x : x <= - M -> clampM x = - M.
  Proof. intros H. pose proof M_pos. unfold clampM. rewrite Rmin_right by lra. apply Rmax_left. lra. Qed.

  Lemma rnd_mono x y : x <= y -> rnd x <= rnd y.
  Proof. apply round_le; typeclasses eauto. Qed.
  Lemma rnd_key (x : fl) : is_finite x = true -> rnd (key x) = key x.
  Proof.
    intros H. rewrite finite_key by exact H. apply round_generic; [typeclasses eauto|]. apply generic_format_B2R.
  Qed.
  Lemma rnd_0 : rnd 0 = 0.
  Proof. apply round_0. typeclasses eauto. Qed.

  Lemma sign_key (x : fl) : nan x = false -> if Bsign x then key x <= 0 else 0 <= key x.
  Proof.
    pose proof M_pos. destruct x as [[]|[]| |[] m ex Hx]; simpl; intros; try discriminate; try lra.
    - apply Rlt_le. apply F2R_lt_0. reflexivity.
    - apply Rlt_le. apply F2R_gt_0. reflexivity.
  Qed.

  Lemma of_overflow (x : fl) s : B2SF x = binary_overflow prec emax mode_NE s -> x = B754_infinity s.
  Proof.
    unfold binary_overflow. cbn [overflow_to_inf]. intros E.
    destruct x; try discriminate. simpl in E. injection E as <-. reflexivity.
  Qed.

  (** Addition of finite numbers: round, then clamp to the infinities. *)
  Lemma plus_key (a b : fl) : is_finite a = true -> is_finite b = true ->
    nan (Bplus mode_NE a b) = false /\ key (Bplus mode_NE a b) = clampM (rnd (key a + key b)).
  Proof.
    intros Fa Fb. pose proof (Bplus_correct prec emax _ _ mode_NE a b Fa Fb) as H.
    rewrite (finite_key a Fa), (finite_key b Fb). simpl round_mode in H.
    destruct (Rlt_bool_spec (Rabs (rnd (B2R a + B2R b))) M) as [Hl|Hl].
    - destruct H as (H1 & H2 & _). split.
      + unfold nan. destruct (Bplus mode_NE a b); try discriminate; reflexivity.
      + rewrite finite_key by exact H2. rewrite H1. symmetry. apply clampM_id.
        apply Rabs_def2 in Hl. lra.
    - destruct H as (H1 & H2). apply of_overflow in H1. rewrite H1. split; [reflexivity|].
      pose proof (sign_key a) as Sa. pose proof (sign_key b) as Sb.
      rewrite (finite_key a Fa) in Sa. rewrite (finite_key b Fb) in Sb.
      assert (Na : nan a = false) by (destruct a; try discriminate; reflexivity).
      assert (Nb : nan b = false) by (destruct b; try discriminate; reflexivity).
      specialize (Sa Na). specialize (Sb Nb). rewrite <- H2 in Sb. cbn [key].
      destruct (Bsign a).
      + symmetry. apply clampM_small.
        assert (rnd (B2R a + B2R b) <= 0) by (rewrite <- rnd_0; apply rnd_mono; lra).
        rewrite Rabs_left1 in Hl by assumption. lra.
      + symmetry. apply clampM_big.
        assert (0 <= rnd (B2R a + B2R b)) by (rewrite <- rnd_0; apply rnd_mono; lra).
        rewrite Rabs_pos_eq in Hl by assumption. lra.
  Qed.

  Lemma minus_key (a b : fl) : is_finite a = true -> is_finite b = true ->
    nan (Bminus mode_NE a b) = false /\ key (Bminus mode_NE a b) = clampM (rnd (key a - key b)).
  Proof.
    intros Fa Fb.
    assert (E : Bminus mode_NE a b = Bplus mode_NE a (Bopp b)).
    { destruct a as [| | |], b as [| | |]; try discriminate; reflexivity. }
    assert (Fb' : is_finite (Bopp b) = true) by (rewrite is_finite_Bopp; exact Fb).
    rewrite E. destruct (plus_key a (Bopp b) Fa Fb') as [H1 H2]. split; [exact H1|].
    rewrite H2. f_equal. f_equal. rewrite !finite_key by assumption. rewrite B2R_Bopp. lra.
  Qed.

  Lemma mult_key (a b : fl) : is_finite a = true -> is_finite b = true ->
    nan (Bmult mode_NE a b) = false /\ key (Bmult mode_NE a b) = clampM (rnd (key a * key b)).
  Proof.
    intros Fa Fb. pose proof (Bmult_correct prec emax _ _ mode_NE a b) as H.
    rewrite (finite_key a Fa), (finite_key b Fb). simpl round_mode in H.
    destruct (Rlt_bool_spec (Rabs (rnd (B2R a * B2R b))) M) as [Hl|Hl].
    - destruct H as (H1 & H2 & _). rewrite Fa, Fb in H2. simpl in H2. split.
      + unfold nan. destruct (Bmult mode_NE a b); try discriminate; reflexivity.
      + rewrite finite_key by exact H2. rewrite H1. symmetry. apply clampM_id.
        apply Rabs_def2 in Hl. lra.
    - apply of_overflow in H. rewrite H. split; [reflexivity|].
      pose proof (sign_key a) as Sa. pose proof (sign_key b) as Sb.
      rewrite (finite_key a Fa) in Sa. rewrite (finite_key b Fb) in Sb.
      assert (Na : nan a = false) by (destruct a; try discriminate; reflexivity).
      assert (Nb : nan b = false) by (destruct b; try discriminate; reflexivity).
      specialize (Sa Na). specialize (Sb Nb). cbn [key].
      assert (Hs : if xorb (Bsign a) (Bsign b) then B2R a * B2R b <= 0 else 0 <= B2R a * B2R b).
      { destruct (Bsign a), (Bsign b); simpl; nra. }
      destruct (xorb (Bsign a) (Bsign b)).
      + symmetry. apply clampM_small.
        assert (rnd (B2R a * B2R b) <= 0) by (rewrite <- rnd_0; apply rnd_mono; lra).
        rewrite Rabs_left1 in Hl by assumption. lra.
      + symmetry. apply clampM_big.
        assert (0 <= rnd (B2R a * B2R b)) by (rewrite <- rnd_0; apply rnd_mono; lra).
        rewrite Rabs_pos_eq in Hl by assumption. lra.
  Qed.
End F.
Arguments nan {prec emax}.
Arguments key {prec emax}.
