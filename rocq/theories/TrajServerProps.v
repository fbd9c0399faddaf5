(** C69: the path server publishes the loaded and edited path. *)
From Coq Require Import Reals Lra Lia Psatz.
From Verif Require Import Common SmoothFilter SmoothFilterProps TrajServer.
Local Open Scope R_scope.

(** *** Specification *)
(** Pose number [i] removed, doubled or replaced. *)
Definition removed (l : list spose) (i : nat) (l' : list spose) : Prop :=
  S (length l') = length l /\ forall j, nth_error l' j = nth_error l (if (j <? i)%nat then j else S j).
Definition doubled (l : list spose) (i : nat) (l' : list spose) : Prop :=
  length l' = S (length l) /\ forall j, nth_error l' j = nth_error l (if (j <=? i)%nat then j else (j - 1)%nat).
Definition replaced (l : list spose) (i : nat) (p : spose) (l' : list spose) : Prop :=
  length l' = length l /\ forall j, nth_error l' j = if (j =? i)%nat then Some p else nth_error l j.
(** All files of a history could be opened, and have poses. *)
Definition all_load (es : list tev) : Prop := forall name file, In (TChange name file) es -> exists l, file = Some l /\ l <> [].

(** *** Proofs *)
Lemma Ok_inj {A} (a b : A) : Ok a = Ok b -> b = a.
Proof. congruence. Qed.
Lemma nth_firstn {A} (l : list A) i j : (j < i)%nat -> nth_error (firstn i l) j = nth_error l j.
Proof.
  revert i j. induction l as [|a l IH]; intros [|i] [|j] H; cbn; try lia; try reflexivity. apply IH. lia.
Qed.
Lemma nth_skipn {A} (l : list A) i j : nth_error (skipn i l) j = nth_error l (i + j)%nat.
Proof. revert i. induction l as [|a l IH]; intros [|i]; cbn; try reflexivity; [destruct j; reflexivity|apply IH]. Qed.
Lemma erase_spec l i l' : erase_at l i = Ok l' -> removed l i l'.
Proof.
  unfold erase_at. destruct (Nat.ltb_spec i (length l)) as [H|]; [|discriminate]. intros E. apply Ok_inj in E. subst l'. split.
  - rewrite app_length, firstn_length, skipn_length. lia.
  - intros j. destruct (Nat.ltb_spec j i).
    + rewrite nth_error_app1 by (rewrite firstn_length; lia). apply nth_firstn. assumption.
    + rewrite nth_error_app2 by (rewrite firstn_length; lia). rewrite firstn_length, nth_skipn. f_equal. lia.
Qed.
Lemma set_spec l i p l' : set_at l i p = Ok l' -> replaced l i p l'.
Proof.
  unfold set_at. destruct (Nat.ltb_spec i (length l)) as [H|]; [|discriminate]. intros E. apply Ok_inj in E. subst l'. split.
  - rewrite app_length, firstn_length. cbn [length]. rewrite skipn_length. lia.
  - intros j. destruct (Nat.eqb_spec j i) as [->|].
    + rewrite nth_error_app2 by (rewrite firstn_length; lia). rewrite firstn_length. replace (i - Nat.min i (length l))%nat with O by lia. reflexivity.
    + destruct (Nat.lt_ge_cases j i).
      * rewrite nth_error_app1 by (rewrite firstn_length; lia). apply nth_firstn. assumption.
      * rewrite nth_error_app2 by (rewrite firstn_length; lia). rewrite firstn_length. replace (j - Nat.min i (length l))%nat with (S (j - S i)) by lia. cbn [nth_error]. rewrite nth_skipn. f_equal. lia.
Qed.
Lemma double_spec l i l' : double_at l i = Ok l' -> doubled l i l'.
Proof.
  unfold double_at. destruct (nth_error l i) as [p|] eqn:P; [|discriminate]. intros E. apply Ok_inj in E. subst l'. assert (H : (i < length l)%nat) by (apply nth_error_Some; congruence). split.
  - rewrite app_length, firstn_length. cbn [length]. rewrite skipn_length. lia.
  - intros j. destruct (Nat.leb_spec j i).
    + destruct (Nat.eq_dec j i) as [->|].
      * rewrite nth_error_app2 by (rewrite firstn_length; lia). rewrite firstn_length. replace (i - Nat.min i (length l))%nat with O by lia. symmetry. exact P.
      * rewrite nth_error_app1 by (rewrite firstn_length; lia). apply nth_firstn. lia.
    + rewrite nth_error_app2 by (rewrite firstn_length; lia). rewrite firstn_length. replace (j - Nat.min i (length l))%nat with (S (j - S i)) by lia. cbn [nth_error]. rewrite nth_skipn. f_equal. lia.
Qed.

Section WithStep.
  Variable st : R.
  Lemma smooth_from_length fx fy l : length (smooth_from fx fy l) = length l.
  Proof. revert fx fy. induction l as [|p l IH]; intros fx fy; cbn; [reflexivity|]. rewrite IH. reflexivity. Qed.
  Lemma smooth_ok l : l <> [] -> exists l', smooth st l = Ok l' /\ length l' = length l.
  Proof.
    intros N. unfold smooth. destruct (Rlt_dec 0 st); [|exists l; auto]. destruct l as [|p l]; [contradiction|]. eexists. split; [reflexivity|]. apply smooth_from_length.
  Qed.
  Lemma step_ok s e : t_marks s = length (t_path s) -> all_load [e] -> exists s', tstep st s e = Ok s' /\ t_marks s' = length (t_path s').
  Proof.
    intros M A. destruct e as [name file|id f]; cbn [tstep].
    - destruct (A name file (or_introl eq_refl)) as (l & -> & N). destruct (smooth_ok l N) as (l' & -> & L). cbn [bind]. eexists. split; reflexivity.
    - destruct (Nat.ltb_spec id (t_marks s)) as [H|H]; [|exists s; auto]. rewrite M in H.
      assert (I : (id <? length (t_path s))%nat = true) by (apply Nat.ltb_lt; exact H).
      destruct f as [p| | | | |]; cbn [bind]; try (eexists; split; [reflexivity|]; cbn; auto; fail).
      + destruct (set_at (t_path s) id p) as [l|] eqn:E; [|unfold set_at in E; rewrite I in E; discriminate]. cbn [bind]. eexists. split; [reflexivity|]. cbn. apply set_spec in E as [E _]. congruence.
      + destruct (erase_at (t_path s) id) as [l|] eqn:E; [|unfold erase_at in E; rewrite I in E; discriminate]. cbn [bind]. eexists. split; reflexivity.
      + destruct (double_at (t_path s) id) as [l|] eqn:E; [cbn [bind]; eexists; split; reflexivity|]. unfold double_at in E. apply nth_error_Some in H. destruct (nth_error (t_path s) id); [discriminate|contradiction].
  Qed.
  Lemma run_ok es s0 : t_marks s0 = length (t_path s0) -> all_load es -> exists s, foldM (tstep st) es s0 = Ok s /\ t_marks s = length (t_path s).
  Proof.
    revert s0. induction es as [|e es IH]; intros s0 M A; [exists s0; auto|]. cbn [foldM].
    destruct (step_ok s0 e M) as (s1 & -> & M1); [intros n f [H|[]]; apply (A n f); left; exact H|]. cbn [bind]. apply IH; [exact M1|]. intros n f H. apply (A n f). right. exact H.
  Qed.
End WithStep.

(** *** Theorems *)
(** As long as all requested files can be opened and have poses, no history of requests and feedback leads to undefined behaviour, and there is exactly one marker per
    pose. *)
Theorem C69_markers_match_the_path st name es : all_load es -> exists s, trun st name es = Ok s /\ t_marks s = length (t_path s).
Proof. intros A. apply run_ok; [reflexivity|exact A]. Qed.

(** What each event does after such a history: marker [i] stands for pose [i].  Whatever is published is the present path. *)
Theorem C69_feedback_edits_its_pose st name es s id f s' : all_load es -> trun st name es = Ok s -> tstep st s (TFeedback id f) = Ok s' ->
  if (id <? length (t_path s))%nat then
    t_name s' = t_name s /\
    match f with
    | FMove p => replaced (t_path s) id p (t_path s') /\ t_pub s' = t_pub s
    | FRelease | FMenu => t_path s' = t_path s /\ t_pub s' = t_pub s ++ [t_path s]
    | FDelete => removed (t_path s) id (t_path s') /\ t_pub s' = t_pub s ++ [t_path s']
    | FAdd => doubled (t_path s) id (t_path s') /\ t_pub s' = t_pub s ++ [t_path s']
    | FOther => s' = s
    end
  else s' = s.
Proof.
  intros A R E. destruct (C69_markers_match_the_path st name es A) as (s0 & R' & M). rewrite R in R'. injection R' as <-. cbn [tstep] in E. rewrite M in E.
  destruct (id <? length (t_path s))%nat; [|injection E as <-; reflexivity]. destruct f as [p| | | | |].
  - destruct (set_at (t_path s) id p) as [l|] eqn:Q; [|discriminate]. injection E as <-. cbn. split; [reflexivity|]. split; [apply set_spec; exact Q|reflexivity].
  - injection E as <-. cbn. auto.
  - destruct (erase_at (t_path s) id) as [l|] eqn:Q; [|discriminate]. injection E as <-. cbn. split; [reflexivity|]. split; [apply erase_spec; exact Q|reflexivity].
  - destruct (double_at (t_path s) id) as [l|] eqn:Q; [|discriminate]. injection E as <-. cbn. split; [reflexivity|]. split; [apply double_spec; exact Q|reflexivity].
  - injection E as <-. cbn. auto.
  - injection E as <-. auto.
Qed.

(** A request replaces and publishes the path; without a smoothing step it is the one of the file. *)
Theorem C69_requested_file_is_published st s name l s' : tstep st s (TChange name (Some l)) = Ok s' ->
  t_name s' = Some name /\ t_pub s' = t_pub s ++ [t_path s'] /\ map sp_rest (t_path s') = map sp_rest l /\ (st <= 0 -> t_path s' = l) /\
  (forall p rest, l = p :: rest -> 0 < st -> exists rest', t_path s' = p :: rest').
Proof.
  cbn [tstep]. destruct (smooth st l) as [l'|] eqn:E; [|discriminate]. cbn [bind]. intros Q. injection Q as <-. cbn [t_name t_pub t_path]. split; [reflexivity|]. split; [reflexivity|].
  unfold smooth in E. destruct (Rlt_dec 0 st) as [P|P].
  - destruct l as [|p l]; [discriminate|]. apply Ok_inj in E. subst l'. split; [|split; [lra|]].
    + assert (G : forall q fx fy, map sp_rest (smooth_from fx fy q) = map sp_rest q) by (induction q as [|a q IH]; intros fx fy; cbn; [reflexivity|rewrite IH; reflexivity]). apply G.
    + intros p0 rest [= <- <-] _. cbn [smooth_from]. assert (F1 : forall c, f_out (fin (fun r => r) (make LPF st c false) c) = c).
      { intros c. exact (C49_lpf_unit_gain (fun r => r) st c 1 P). }
      rewrite !F1. destruct p as [x y r]. eexists. reflexivity.
  - injection E as <-. split; [reflexivity|]. split; [reflexivity|]. intros; lra.
Qed.

(** A file that cannot be opened empties the path, but is not published and leaves the markers. *)
Theorem C69_missing_file_clears_the_path st s name s' : tstep st s (TChange name None) = Ok s' -> t_path s' = [] /\ t_name s' = None /\ t_pub s' = t_pub s.
Proof. intros E. injection E as <-. auto. Qed.
(** The feedback of a marker that is left over then addresses a pose that is gone. *)
Theorem C69_feedback_after_a_missing_file_refuted st name p l n : ~ 0 < st ->
  trun st name [TChange n (Some (p :: l)); TChange n None; TFeedback 0 FDelete] = UB.
Proof. intros H. unfold trun. cbn [foldM tstep]. unfold smooth. destruct (Rlt_dec 0 st); [contradiction|]. reflexivity. Qed.
(** Smoothing a path without poses reads the first one. *)
Theorem C69_smoothing_an_empty_path_refuted st name n : 0 < st -> trun st name [TChange n (Some [])] = UB.
Proof. intros H. unfold trun. cbn [foldM tstep]. unfold smooth. destruct (Rlt_dec 0 st); [reflexivity|contradiction]. Qed.

(** *** Smoothing *)
Lemma convex a b u v lo hi : 0 <= a -> 0 <= b -> a + b = 1 -> lo <= u <= hi -> lo <= v <= hi -> lo <= a * u + b * v <= hi.
Proof. intros. split; nra. Qed.
Section Box.
  Variable st : R.
  Hypothesis S : 1 / 2 <= st.
  Definition inner (f : fil) (lo hi : R) : Prop :=
    exists z, lo <= z <= hi /\ f_angle f = false /\ f_k0 f = f_k0 (make LPF st 0 false) /\ f_k1 f = f_k1 (make LPF st 0 false) /\ f_k2 f = f_k2 (make LPF st 0 false) /\ f_k3 f = f_k3 (make LPF st 0 false) /\
      f_x f = (1 - f_k2 f) * z / f_k3 f.
  Lemma inner_step f lo hi i : inner f lo hi -> lo <= i <= hi -> inner (fin (fun r => r) f i) lo hi /\ lo <= f_out (fin (fun r => r) f i) <= hi.
  Proof.
    intros (z & Z & A & K0 & K1 & K2 & K3 & X) I. unfold fin. rewrite A, X, K0, K1, K2, K3. cbn [make f_k0 f_k1 f_k2 f_k3 f_x f_out f_angle].
    set (d := decay st). assert (D : 0 <= d) by (unfold d, decay; apply Rmult_le_pos; [lra|left; apply Rinv_0_lt_compat; lra]).
    assert (D1 : 2 / (1 + 2 * st) + d = 1) by (unfold d, decay; field; lra).
    assert (Z' : lo <= 2 / (1 + 2 * st) * i + d * z <= hi).
    { apply convex; auto. apply Rmult_le_pos; [lra|left; apply Rinv_0_lt_compat; lra]. }
    set (z' := 2 / (1 + 2 * st) * i + d * z) in *.
    assert (Ex : (- ((1 - 2 * st) * (-1 / (1 + 2 * st))) - 1) * i + (1 - 2 * st) * (-1 / (1 + 2 * st)) * ((1 - - (-1 / (1 + 2 * st))) * z / (-1 / (1 + 2 * st))) =
      (1 - - (-1 / (1 + 2 * st))) * z' / (-1 / (1 + 2 * st))).
    { unfold z', d, decay. field. repeat split; lra. }
    split.
    - exists z'. split; [exact Z'|]. cbn [f_k0 f_k1 f_k2 f_k3 f_x f_out f_angle make]. split; [reflexivity|]. repeat (split; [reflexivity|]). exact Ex.
    - rewrite Ex. replace (- (-1 / (1 + 2 * st)) * i + -1 / (1 + 2 * st) * ((1 - - (-1 / (1 + 2 * st))) * z' / (-1 / (1 + 2 * st))))
        with (1 / (1 + 2 * st) * i + 2 * st / (1 + 2 * st) * z') by (field; repeat split; lra).
      apply convex; auto; [apply Rmult_le_pos; [lra|left; apply Rinv_0_lt_compat; lra]|apply Rmult_le_pos; [lra|left; apply Rinv_0_lt_compat; lra]|field; lra].
  Qed.
  Lemma inner_make c lo hi : lo <= c <= hi -> inner (make LPF st c false) lo hi.
  Proof. intros H. exists c. split; [exact H|]. cbn. repeat (split; [reflexivity|]). reflexivity. Qed.
  Lemma smooth_from_box fx fy l xl xh yl yh : inner fx xl xh -> inner fy yl yh -> Forall (fun p => xl <= sp_x p <= xh /\ yl <= sp_y p <= yh) l ->
    Forall (fun p => xl <= sp_x p <= xh /\ yl <= sp_y p <= yh) (smooth_from fx fy l).
  Proof.
    intros Hx Hy F. revert fx fy Hx Hy. induction F as [|p l [P1 P2] F IH]; intros fx fy Hx Hy; cbn [smooth_from]; constructor.
    - cbn. split; [apply (inner_step fx xl xh _ Hx P1)|apply (inner_step fy yl yh _ Hy P2)].
    - apply IH; [apply (inner_step fx xl xh _ Hx P1)|apply (inner_step fy yl yh _ Hy P2)].
  Qed.
End Box.
(** With a step of at least 1/2 the smoothed path stays in every box that contains the path of the file. *)
Theorem C69_smoothed_path_stays_in_the_box st l l' xl xh yl yh : 1 / 2 <= st -> smooth st l = Ok l' ->
  Forall (fun p => xl <= sp_x p <= xh /\ yl <= sp_y p <= yh) l -> Forall (fun p => xl <= sp_x p <= xh /\ yl <= sp_y p <= yh) l'.
Proof.
  intros S E F. unfold smooth in E. destruct (Rlt_dec 0 st); [|lra]. destruct l as [|p l]; [discriminate|]. apply Ok_inj in E. subst l'. pose proof (Forall_inv F) as [B1 B2].
  apply (smooth_from_box st S); [apply inner_make; assumption|apply inner_make; assumption|exact F].
Qed.
(** With smaller steps it leaves the box. *)
Theorem C69_small_steps_overshoot_refuted : exists l', smooth (1/4) [SPose 0 0 0; SPose 1 0 0] = Ok l' /\ exists p, In p l' /\ 1 < sp_x p.
Proof.
  eexists. split; [unfold smooth; destruct (Rlt_dec 0 (1/4)); [reflexivity|lra]|]. cbn [smooth_from]. eexists. split; [right; left; reflexivity|]. cbn. lra.
Qed.

(** *** The hypotheses are met *)
Example ex_server : let es := [TChange 1 (Some [SPose 0 0 0; SPose 1 0 1; SPose 2 0 2]); TFeedback 1 (FMove (SPose 1 1 1)); TFeedback 2 FAdd; TFeedback 0 FDelete; TFeedback 5 FDelete] in
  all_load es /\ exists s, trun 0 7 es = Ok s /\ t_path s = [SPose 1 1 1; SPose 2 0 2; SPose 2 0 2] /\ length (t_pub s) = 3%nat.
Proof.
  split.
  - intros name file [H|[H|[H|[H|[H|[]]]]]]; try discriminate H. injection H as _ <-. eexists. split; [reflexivity|discriminate].
  - unfold trun. cbn [foldM tstep]. unfold smooth. destruct (Rlt_dec 0 0); [lra|]. eexists. repeat split.
Qed.

Print Assumptions C69_markers_match_the_path.
Print Assumptions C69_feedback_edits_its_pose.
Print Assumptions C69_requested_file_is_published.
Print Assumptions C69_smoothed_path_stays_in_the_box.
