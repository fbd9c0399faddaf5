(** Property C52: localisation jump detection. *)
From Coq Require Import Reals Lra List Psatz.
From Verif Require Import JumpDetector.
Import ListNotations.
Local Open Scope R_scope.

(** *** Specification *)
(** A rigid transform. *)
Definition rigid (a : tf) : Prop := t_c a * t_c a + t_s a * t_s a = 1.
(** The pose at which odometry predicts the robot: the last localised pose moved by
    the odometry increment. *)
Definition predicted (base0 map0 base : tf) : tf := tmul map0 (tmul (tinv base0) base).
(** Planar distance of two poses. *)
Definition distance (a b : tf) : R := sqrt ((t_x a - t_x b)² + (t_y a - t_y b)²).
(** The last sample for which both transforms were available. *)
Fixpoint last_sample (l : list (option (tf * tf))) : option (tf * tf) :=
  match l with
  | [] => None
  | s :: l' => match last_sample l' with Some r => Some r | None => s end
  end.
Definition rigid_samples (l : list (option (tf * tf))) : Prop :=
  forall b m, In (Some (b, m)) l -> rigid b /\ rigid m.

Section P.
  Variables (yaw_of : R -> R -> R) (pos_jump yaw_jump : R).

  (** The heading error: the rotation that takes the localised heading to the
      predicted one. *)
  Definition heading_error (predicted actual : tf) : R :=
    yaw_of (t_c predicted * t_c actual + t_s predicted * t_s actual)
           (t_s predicted * t_c actual - t_c predicted * t_s actual).

  Definition jumped (base0 map0 base map : tf) : Prop :=
    distance (predicted base0 map0 base) map > pos_jump \/
    Rabs (heading_error (predicted base0 map0 base) map) > yaw_jump.

  Lemma tmul_assoc a b c : tmul (tmul a b) c = tmul a (tmul b c).
  Proof. unfold tmul; simpl; f_equal; ring. Qed.

  Lemma inv_origin m p : rigid m ->
    (t_x (tmul (tinv m) p))² + (t_y (tmul (tinv m) p))² = (t_x p - t_x m)² + (t_y p - t_y m)².
  Proof.
    unfold rigid. intros H. unfold Rsqr; simpl.
    replace ((t_c m * t_x p - - t_s m * t_y p + - (t_c m * t_x m + t_s m * t_y m)) *
             (t_c m * t_x p - - t_s m * t_y p + - (t_c m * t_x m + t_s m * t_y m)) +
             (- t_s m * t_x p + t_c m * t_y p + (t_s m * t_x m - t_c m * t_y m)) *
             (- t_s m * t_x p + t_c m * t_y p + (t_s m * t_x m - t_c m * t_y m)))
      with ((t_c m * t_c m + t_s m * t_s m) *
            ((t_x p - t_x m) * (t_x p - t_x m) + (t_y p - t_y m) * (t_y p - t_y m))) by ring.
    rewrite H. ring.
  Qed.

  Lemma detect_exact st base map : j_init st = true -> rigid map ->
    snd (detectJump yaw_of pos_jump yaw_jump st (Some (base, map))) = true <->
    jumped (j_base st) (j_map st) base map.
  Proof.
    intros Hi Hm. unfold detectJump. rewrite Hi. cbn [negb snd]. rewrite tmul_assoc.
    fold (predicted (j_base st) (j_map st) base). set (p := predicted (j_base st) (j_map st) base).
    unfold jumped. fold p. unfold distance.
    assert (E : t_x (tmul (tinv map) p) * t_x (tmul (tinv map) p) + t_y (tmul (tinv map) p) * t_y (tmul (tinv map) p)
              = (t_x p - t_x map)² + (t_y p - t_y map)²) by (apply (inv_origin map p Hm)).
    rewrite E.
    assert (EH : yaw_of (t_c (tmul (tinv map) p)) (t_s (tmul (tinv map) p)) = heading_error p map).
    { unfold heading_error, tmul, tinv. simpl. f_equal; ring. }
    rewrite EH.
    destruct (Rlt_dec pos_jump _) as [H1|H1]; [split; [left; exact H1|reflexivity]|].
    destruct (Rlt_dec yaw_jump _) as [H2|H2]; [split; [right; exact H2|reflexivity]|].
    split; [discriminate|]. intros [H|H]; [elim H1; exact H|elim H2; exact H].
  Qed.

  Definition state_of (o : option (tf * tf)) (st : jstate) : Prop :=
    match o with
    | None => j_init st = false
    | Some (b, m) => j_init st = true /\ j_base st = b /\ j_map st = m
    end.

  Fixpoint jend (st : jstate) (l : list (option (tf * tf))) : jstate :=
    match l with [] => st | s :: l' => jend (fst (detectJump yaw_of pos_jump yaw_jump st s)) l' end.

  Lemma jrun_app l1 : forall st l2, jrun yaw_of pos_jump yaw_jump st (l1 ++ l2) =
    jrun yaw_of pos_jump yaw_jump st l1 ++ jrun yaw_of pos_jump yaw_jump (jend st l1) l2.
  Proof.
    induction l1 as [|s l1 IH]; intros st l2; [reflexivity|]. cbn [app jrun jend].
    destruct (detectJump yaw_of pos_jump yaw_jump st s) as [st' b] eqn:E. cbn [fst app]. rewrite IH. reflexivity.
  Qed.

  Lemma jend_state l : forall st o, state_of o st ->
    state_of (match last_sample l with Some r => Some r | None => o end) (jend st l).
  Proof.
    induction l as [|s l IH]; intros st o H; [exact H|]. cbn [last_sample jend].
    destruct s as [[b m]|].
    - specialize (IH (fst (detectJump yaw_of pos_jump yaw_jump st (Some (b, m)))) (Some (b, m))).
      destruct (last_sample l); apply IH; unfold detectJump; destruct (j_init st); cbn; auto.
    - specialize (IH st o H). destruct (last_sample l); exact IH.
  Qed.

  (** For every history of samples, the answer to the next call is: no jump without
      a transform or without an earlier sample; otherwise exactly whether the robot is
      farther from the predicted pose than a threshold. *)
  Theorem C52_jump_reported_exactly history sample : rigid_samples (history ++ [sample]) ->
    exists r, jrun yaw_of pos_jump yaw_jump jinit (history ++ [sample]) =
              jrun yaw_of pos_jump yaw_jump jinit history ++ [r] /\
      (r = true <-> exists base0 map0 base map,
         last_sample history = Some (base0, map0) /\ sample = Some (base, map) /\ jumped base0 map0 base map).
  Proof.
    intros HR. rewrite jrun_app. cbn [jrun].
    pose proof (jend_state history jinit None eq_refl) as HS.
    destruct (detectJump yaw_of pos_jump yaw_jump (jend jinit history) sample) as [st' r] eqn:E.
    exists r. split; [reflexivity|].
    destruct sample as [[base map]|].
    - destruct (last_sample history) as [[b0 m0]|].
      + destruct HS as (H1 & H2 & H3).
        assert (Hm : rigid map) by (destruct (HR base map) as [_ ?]; [apply in_or_app; right; left; reflexivity|assumption]).
        pose proof (detect_exact (jend jinit history) base map H1 Hm) as HD. rewrite E, H2, H3 in HD. cbn [snd] in HD.
        rewrite HD. split; [intros H; exists b0, m0, base, map; auto|].
        intros (b & m & b' & m' & A & B & C). injection A as <- <-. injection B as <- <-. exact C.
      + simpl in HS. unfold detectJump in E. rewrite HS in E. injection E as _ <-.
        split; [discriminate|]. intros (b & m & b' & m' & A & _). discriminate.
    - injection E as _ <-. split; [discriminate|]. intros (b & m & b' & m' & _ & B & _). discriminate.
  Qed.

  (** If localisation merely follows odometry (a fixed correction [T]), no jump is
      ever reported. *)
  Theorem C52_no_false_alarm T (bases : list tf) : yaw_of 1 0 = 0 -> 0 <= pos_jump -> 0 <= yaw_jump ->
    rigid T -> Forall rigid bases ->
    Forall (fun r => r = false)
      (jrun yaw_of pos_jump yaw_jump jinit (map (fun b => Some (b, tmul T b)) bases)).
  Proof.
    intros Hy Hp Hj HT HB.
    assert (G : forall bs st, Forall rigid bs ->
              (j_init st = false \/ rigid (j_base st) /\ j_map st = tmul T (j_base st)) ->
              Forall (fun r => r = false) (jrun yaw_of pos_jump yaw_jump st (map (fun b => Some (b, tmul T b)) bs))).
    2:{ apply G; [exact HB|left; reflexivity]. }
    induction bs as [|b bs IH]; intros st HF HS; [constructor|].
    inversion HF as [|? ? Hb HF']; subst. cbn [map jrun].
    destruct (detectJump yaw_of pos_jump yaw_jump st (Some (b, tmul T b))) as [st' r] eqn:E.
    assert (Hst : j_base st' = b /\ j_map st' = tmul T b).
    { unfold detectJump in E. destruct (j_init st); injection E as <- _; auto. }
    constructor.
    - destruct (j_init st) eqn:Ei.
      + destruct HS as [HS|[HS1 HS2]]; [discriminate|].
        destruct r; [|reflexivity]. exfalso.
        assert (HT' : rigid (tmul T b)).
        { unfold rigid in *. simpl.
          replace ((t_c T * t_c b - t_s T * t_s b) * (t_c T * t_c b - t_s T * t_s b) +
                   (t_s T * t_c b + t_c T * t_s b) * (t_s T * t_c b + t_c T * t_s b))
            with ((t_c T * t_c T + t_s T * t_s T) * (t_c b * t_c b + t_s b * t_s b)) by ring.
          rewrite HT, Hb. ring. }
        pose proof (detect_exact st b (tmul T b) Ei HT') as HD. rewrite E in HD. cbn [snd] in HD.
        destruct (proj1 HD eq_refl) as [H|H].
        * assert (EP : predicted (j_base st) (j_map st) b = tmul T b).
          { rewrite HS2. unfold predicted. rewrite <- tmul_assoc, (tmul_assoc T).
            assert (EI : tmul (j_base st) (tinv (j_base st)) = tid).
            { unfold tmul, tinv, tid, rigid in *. simpl. f_equal; [lra|ring| |].
              - replace (t_c (j_base st) * - (t_c (j_base st) * t_x (j_base st) + t_s (j_base st) * t_y (j_base st)) -
                   t_s (j_base st) * (t_s (j_base st) * t_x (j_base st) - t_c (j_base st) * t_y (j_base st)) + t_x (j_base st))
                  with (t_x (j_base st) * (1 - (t_c (j_base st) * t_c (j_base st) + t_s (j_base st) * t_s (j_base st)))) by ring.
                rewrite HS1. ring.
              - replace (t_s (j_base st) * - (t_c (j_base st) * t_x (j_base st) + t_s (j_base st) * t_y (j_base st)) +
                   t_c (j_base st) * (t_s (j_base st) * t_x (j_base st) - t_c (j_base st) * t_y (j_base st)) + t_y (j_base st))
                  with (t_y (j_base st) * (1 - (t_c (j_base st) * t_c (j_base st) + t_s (j_base st) * t_s (j_base st)))) by ring.
                rewrite HS1. ring. }
            rewrite EI. unfold tmul, tid. simpl. f_equal; ring. }
          rewrite EP in H. unfold distance in H.
          replace ((t_x (tmul T b) - t_x (tmul T b))² + (t_y (tmul T b) - t_y (tmul T b))²) with 0 in H by (unfold Rsqr; ring).
          rewrite sqrt_0 in H. lra.
        * assert (EP : t_c (predicted (j_base st) (j_map st) b) = t_c (tmul T b) /\
                       t_s (predicted (j_base st) (j_map st) b) = t_s (tmul T b)).
          { rewrite HS2. unfold predicted, tmul, tinv, rigid in *. simpl.
            split.
            - replace ((t_c T * t_c (j_base st) - t_s T * t_s (j_base st)) * (t_c (j_base st) * t_c b - - t_s (j_base st) * t_s b) -
                (t_s T * t_c (j_base st) + t_c T * t_s (j_base st)) * (- t_s (j_base st) * t_c b + t_c (j_base st) * t_s b))
                with ((t_c (j_base st) * t_c (j_base st) + t_s (j_base st) * t_s (j_base st)) * (t_c T * t_c b - t_s T * t_s b)) by ring.
              rewrite HS1. ring.
            - replace ((t_s T * t_c (j_base st) + t_c T * t_s (j_base st)) * (t_c (j_base st) * t_c b - - t_s (j_base st) * t_s b) +
                (t_c T * t_c (j_base st) - t_s T * t_s (j_base st)) * (- t_s (j_base st) * t_c b + t_c (j_base st) * t_s b))
                with ((t_c (j_base st) * t_c (j_base st) + t_s (j_base st) * t_s (j_base st)) * (t_s T * t_c b + t_c T * t_s b)) by ring.
              rewrite HS1. ring. }
          destruct EP as [EC ES]. unfold heading_error in H. rewrite EC, ES in H.
          unfold rigid in HT'. rewrite HT' in H.
          replace (t_s (tmul T b) * t_c (tmul T b) - t_c (tmul T b) * t_s (tmul T b)) with 0 in H by ring.
          rewrite Hy, Rabs_R0 in H. lra.
      + unfold detectJump in E. rewrite Ei in E. injection E as _ <-. reflexivity.
    - apply IH; [exact HF'|]. right. destruct Hst as [-> ->]. auto.
  Qed.
End P.

(** A concrete jump: odometry says 1 m forward, localisation says 3 m. *)
Example C52_ex : jrun (fun _ s => s) 1 1 jinit
  [None; Some (tid, tid); Some (mkTf 1 0 1 0, mkTf 1 0 1 0); Some (mkTf 1 0 2 0, mkTf 1 0 4 0)] = [false; false; false; true].
Proof.
  unfold jrun, detectJump, jinit, tid, tmul, tinv. cbn [t_c t_s t_x t_y j_map j_base j_init negb].
  repeat f_equal.
  - match goal with |- context [sqrt ?a] => replace a with (0 * 0) by ring end. rewrite sqrt_square by lra.
    destruct (Rlt_dec 1 0); [lra|]. match goal with |- context [Rabs ?a] => replace a with 0 by ring end.
    rewrite Rabs_R0. destruct (Rlt_dec 1 0); [lra|reflexivity].
  - match goal with |- context [sqrt ?a] => replace a with (2 * 2) by ring end. rewrite sqrt_square by lra.
    destruct (Rlt_dec 1 2); [reflexivity|lra].
Qed.
Example C52_ex_rigid : rigid (mkTf (3/5) (4/5) 1 2).
Proof. unfold rigid. simpl. lra. Qed.

Print Assumptions C52_jump_reported_exactly.
Print Assumptions C52_no_false_alarm.
