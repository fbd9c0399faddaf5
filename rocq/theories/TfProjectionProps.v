(** C72: the projected frame. *)
From Coq Require Import Reals ZArith Lra Psatz Nsatz.
From Verif Require Import Common TfProjection.
Local Open Scope R_scope.

(** *** Specification *)
Definition vsub (a b : vec3) : vec3 := V3 (v_x a - v_x b) (v_y a - v_y b) (v_z a - v_z b).
Definition dist (a b : vec3) : R := sqrt (dot (vsub a b) (vsub a b)).
(** Columns: the axes of the rotated frame. *)
Definition axis_x (m : mat3) : vec3 := V3 (v_x (m_x m)) (v_x (m_y m)) (v_x (m_z m)).
Definition axis_y (m : mat3) : vec3 := V3 (v_y (m_x m)) (v_y (m_y m)) (v_y (m_z m)).
Definition axis_z (m : mat3) : vec3 := V3 (v_z (m_x m)) (v_z (m_y m)) (v_z (m_z m)).
Definition cross (a b : vec3) : vec3 := V3 (v_y a * v_z b - v_z a * v_y b) (v_z a * v_x b - v_x a * v_z b) (v_x a * v_y b - v_y a * v_x b).
(** A rotation: right-handed orthonormal axes. *)
Definition rotation (m : mat3) : Prop :=
  dot (axis_x m) (axis_x m) = 1 /\ dot (axis_y m) (axis_y m) = 1 /\ dot (axis_x m) (axis_y m) = 0 /\ axis_z m = cross (axis_x m) (axis_y m).
(** The x axis is not (within 0.99999) vertical, so that there is a heading. *)
Definition has_heading (m : mat3) : Prop := Rabs (v_z (axis_x m)) < 99999 / 100000.
(** A horizontal unit vector that points where [m]'s x axis does, seen from above. *)
Definition heading (m : mat3) (u : vec3) : Prop := v_z u = 0 /\ dot u u = 1 /\ exists k, 0 < k /\ v_x (axis_x m) = k * v_x u /\ v_y (axis_x m) = k * v_y u.

(** *** Proofs *)
Lemma v3_eq a b : v_x a = v_x b -> v_y a = v_y b -> v_z a = v_z b -> a = b.
Proof. destruct a, b. cbn. intros -> -> ->. reflexivity. Qed.
Lemma m3_eq a b : axis_x a = axis_x b -> axis_y a = axis_y b -> axis_z a = axis_z b -> a = b.
Proof. destruct a as [[] [] []], b as [[] [] []]. unfold axis_x, axis_y, axis_z. cbn. intros [= -> -> ->] [= -> -> ->] [= -> -> ->]. reflexivity. Qed.
(** Rows are orthonormal as well. *)
Lemma rotation_rows m : rotation m ->
  dot (m_x m) (m_x m) = 1 /\ dot (m_y m) (m_y m) = 1 /\ dot (m_z m) (m_z m) = 1 /\ dot (m_x m) (m_y m) = 0 /\ dot (m_x m) (m_z m) = 0 /\ dot (m_y m) (m_z m) = 0.
Proof.
  destruct m as [[a b c] [d e f] [g h i]]. unfold rotation, axis_x, axis_y, axis_z, cross, dot. cbn. intros (X & Y & O & Z). injection Z as Z1 Z2 Z3. subst c f i.
  repeat split; nsatz.
Qed.
Lemma rotation_transpose_mul m : rotation m -> mmul (transpose m) m = M3 (V3 1 0 0) (V3 0 1 0) (V3 0 0 1).
Proof.
  destruct m as [[a b c] [d e f] [g h i]]. unfold rotation, axis_x, axis_y, axis_z, cross, dot, mmul, transpose, mvec. cbn. intros (X & Y & O & Z). injection Z as Z1 Z2 Z3. subst c f i.
  unfold dot. cbn. f_equal; apply v3_eq; cbn; nsatz.
Qed.
Lemma mmul_assoc a b c : mmul (mmul a b) c = mmul a (mmul b c).
Proof. destruct a as [[] [] []], b as [[] [] []], c as [[] [] []]. unfold mmul, mvec, transpose, dot. cbn. f_equal; apply v3_eq; cbn; ring. Qed.
Lemma mmul_mvec a b v : mvec (mmul a b) v = mvec a (mvec b v).
Proof. destruct a as [[] [] []], b as [[] [] []], v. unfold mmul, mvec, transpose, dot. cbn. apply v3_eq; cbn; ring. Qed.
Definition I3 : mat3 := M3 (V3 1 0 0) (V3 0 1 0) (V3 0 0 1).
Lemma mmul_1_r a : mmul a I3 = a.
Proof. destruct a as [[] [] []]. unfold I3, mmul, mvec, transpose, dot. cbn. f_equal; apply v3_eq; cbn; ring. Qed.
Lemma mmul_1_l a : mmul I3 a = a.
Proof. destruct a as [[] [] []]. unfold I3, mmul, mvec, transpose, dot. cbn. f_equal; apply v3_eq; cbn; ring. Qed.
Lemma mvec_1 v : mvec I3 v = v.
Proof. destruct v. unfold I3, mvec, dot. cbn. apply v3_eq; cbn; ring. Qed.
Lemma mvec_isometry m v w : rotation m -> dot (mvec m v) (mvec m w) = dot v w.
Proof.
  destruct m as [[a b c] [d e f] [g h i]], v as [x y z], w as [x' y' z']. unfold rotation, axis_x, axis_y, axis_z, cross, dot, mvec. cbn. intros (X & Y & O & Z). injection Z as Z1 Z2 Z3. subst c f i.
  unfold dot. cbn. nsatz.
Qed.
Lemma mvec_sub m v w : vsub (mvec m v) (mvec m w) = mvec m (vsub v w).
Proof. destruct m as [[] [] []], v, w. unfold mvec, vsub, dot. cbn. apply v3_eq; cbn; ring. Qed.
Lemma tpoint_dist t v w : rotation (t_rot t) -> dist (tpoint t v) (tpoint t w) = dist v w.
Proof.
  intros R. unfold dist. f_equal. assert (E : vsub (tpoint t v) (tpoint t w) = mvec (t_rot t) (vsub v w)).
  { rewrite <- mvec_sub. unfold tpoint. destruct (mvec (t_rot t) v), (mvec (t_rot t) w), (t_org t). unfold vadd, vsub. cbn. apply v3_eq; cbn; ring. }
  rewrite E. apply mvec_isometry, R.
Qed.
Lemma rotation_mul a b : rotation a -> rotation b -> rotation (mmul a b).
Proof.
  destruct a as [[a1 a2 a3] [a4 a5 a6] [a7 a8 a9]], b as [[b1 b2 b3] [b4 b5 b6] [b7 b8 b9]]. unfold rotation, axis_x, axis_y, axis_z, cross, dot, mmul, mvec, transpose. cbn.
  intros (X & Y & O & Z) (X' & Y' & O' & Z'). injection Z as -> -> ->. injection Z' as -> -> ->. unfold dot. cbn.
  split; [nsatz|]. split; [nsatz|]. split; [nsatz|]. apply v3_eq; cbn; nsatz.
Qed.
Lemma rotation_transpose a : rotation a -> rotation (transpose a).
Proof.
  intros Ha. destruct (rotation_rows a Ha) as (A & B & C & D & E & F). unfold rotation.
  destruct a as [[a b c] [d e f] [g h i]]. unfold rotation, axis_x, axis_y, axis_z, cross, dot, transpose in *. cbn in *. destruct Ha as (X & Y & O & Z). injection Z as -> -> ->.
  repeat split; try assumption. apply v3_eq; cbn; nsatz.
Qed.
Lemma rotation_rotz c s : c * c + s * s = 1 -> rotation (rotz c s).
Proof. intros H. unfold rotation, rotz, axis_x, axis_y, axis_z, cross, dot. cbn. repeat split; try lra. apply v3_eq; cbn; lra. Qed.
Lemma heading_len m : rotation m -> has_heading m -> 0 < v_x (m_x m) * v_x (m_x m) + v_x (m_y m) * v_x (m_y m).
Proof.
  intros (X & _) H. unfold has_heading, axis_x, dot in *. cbn in *. apply Rabs_def2 in H. nra.
Qed.
Section Node.
  Variable vertical : mat3 -> R * R.
  Hypothesis vertical_unit : forall m, fst (vertical m) * fst (vertical m) + snd (vertical m) * snd (vertical m) = 1.
  Lemma unit_div c s : 0 < c * c + s * s -> (c / sqrt (c * c + s * s)) * (c / sqrt (c * c + s * s)) + (s / sqrt (c * c + s * s)) * (s / sqrt (c * c + s * s)) = 1.
  Proof.
    intros H. set (q := sqrt (c * c + s * s)). assert (Q : q * q = c * c + s * s) by (apply sqrt_sqrt; lra). assert (0 < q) by (apply sqrt_lt_R0; exact H).
    replace (c / q * (c / q) + s / q * (s / q)) with ((c * c + s * s) / (q * q)) by (field; lra). rewrite Q. field. lra.
  Qed.
  Lemma yaw_of_heading m : rotation m -> has_heading m -> exists u, heading m u /\ yaw_of vertical m = rotz (v_x u) (v_y u).
  Proof.
    intros Hm Hh. pose proof (heading_len m Hm Hh) as P. unfold yaw_of. destruct (Rlt_dec _ _) as [|N]; [|contradiction N; exact Hh].
    set (c := v_x (m_x m)) in *. set (s := v_x (m_y m)) in *.
    exists (V3 (c / sqrt (c * c + s * s)) (s / sqrt (c * c + s * s)) 0). split; [|reflexivity]. unfold heading. cbn. split; [reflexivity|]. split.
    - unfold dot. cbn [v_x v_y v_z]. pose proof (unit_div c s P). lra.
    - exists (sqrt (c * c + s * s)). assert (0 < sqrt (c * c + s * s)) by (apply sqrt_lt_R0; exact P). split; [assumption|]. unfold axis_x. cbn. split; unfold c, s; field; apply Rgt_not_eq; assumption.
  Qed.
  Lemma yaw_of_rotz m : rotation m -> exists c s, yaw_of vertical m = rotz c s /\ c * c + s * s = 1.
  Proof.
    intros Hm. unfold yaw_of. destruct (Rlt_dec _ _) as [L|N]; [|do 2 eexists; split; [reflexivity|apply vertical_unit]].
    do 2 eexists; split; [reflexivity|]. apply unit_div. apply heading_len; assumption.
  Qed.
  Lemma yaw_of_level c s : c * c + s * s = 1 -> yaw_of vertical (rotz c s) = rotz c s.
  Proof.
    intros H. unfold yaw_of, rotz. cbn [m_x m_y m_z v_x v_y v_z]. destruct (Rlt_dec _ _) as [_|N]; [|exfalso; apply N; rewrite Rabs_R0; lra].
    rewrite H, sqrt_1. unfold Rdiv. rewrite Rinv_1, !Rmult_1_r. reflexivity.
  Qed.
  Lemma posture_rot c trans : rotation (t_rot trans) -> p_posture c = true -> t_rot (posture vertical c trans) = yaw_of vertical (t_rot trans).
  Proof.
    intros H P. unfold posture. rewrite P. destruct (p_align c); [|reflexivity]. cbn [tmul t_rot]. rewrite mmul_assoc, (rotation_transpose_mul _ H). apply mmul_1_r.
  Qed.
  Lemma posture_rotation c trans : rotation (t_rot trans) -> rotation (t_rot (posture vertical c trans)).
  Proof.
    intros H. destruct (p_posture c) eqn:P; [|unfold posture; rewrite P; exact H]. rewrite (posture_rot c trans H P). destruct (yaw_of_rotz _ H) as (x & y & -> & U). apply rotation_rotz, U.
  Qed.

  (** The origin is the one point of the surface's xy plane that is nearest to the source (all seen from the parent frame), unless
      [align_all_posture_to_source] is in force. *)
  Definition source_in_parent (trans target : tf) : vec3 := tpoint target (t_org trans).
  Lemma foot target (o : vec3) : rotation (t_rot target) -> forall x y,
    tpoint target (V3 x y 0) = tpoint target (V3 (v_x o) (v_y o) 0) \/
    dist (tpoint target (V3 (v_x o) (v_y o) 0)) (tpoint target o) < dist (tpoint target (V3 x y 0)) (tpoint target o).
  Proof.
    intros Ht x y. rewrite !tpoint_dist by exact Ht. destruct o as [a b z]. cbn [v_x v_y]. destruct (Req_dec x a) as [->|Nx].
    - destruct (Req_dec y b) as [->|Ny]; [left; reflexivity|]. right. assert (0 < (y - b) * (y - b)) by (apply Rsqr_pos_lt; lra). pose proof (Rle_0_sqr (0 - z)). unfold Rsqr in *.
      apply sqrt_lt_1; unfold dot, vsub; cbn; replace (a - a) with 0 by ring; try replace (b - b) with 0 by ring; lra.
    - right. assert (0 < (x - a) * (x - a)) by (apply Rsqr_pos_lt; lra). pose proof (Rle_0_sqr (y - b)). pose proof (Rle_0_sqr (0 - z)). unfold Rsqr in *.
      apply sqrt_lt_1; unfold dot, vsub; cbn; replace (a - a) with 0 by ring; replace (b - b) with 0 by ring; lra.
  Qed.
  Theorem C72_origin_is_the_nearest_point_of_the_surface c stamp trans target : rotation (t_rot target) -> p_posture c && p_align c = false ->
    let o := t_org (s_tf (process vertical c stamp trans target)) in
    (exists x y, o = tpoint target (V3 x y 0)) /\
    (forall x y, tpoint target (V3 x y 0) = o \/ dist o (source_in_parent trans target) < dist (tpoint target (V3 x y 0)) (source_in_parent trans target)).
  Proof.
    intros Ht A. cbv zeta. assert (O : t_org (s_tf (process vertical c stamp trans target)) = tpoint target (V3 (v_x (t_org trans)) (v_y (t_org trans)) 0)).
    { assert (P : t_org (posture vertical c trans) = t_org trans). { unfold posture. destruct (p_posture c); [|reflexivity]. destruct (p_align c); [discriminate A|reflexivity]. }
      unfold process. cbn [s_tf]. destruct (p_flat c); cbn [t_org]; unfold projectTranslation; cbn [tmul t_org]; rewrite P; reflexivity. }
    rewrite O. split; [eauto|]. apply foot, Ht.
  Qed.
  (** With it, the origin is the nearest point to the source after the source has been turned about the surface's origin so that its z axis is the normal. *)
  Theorem C72_aligned_origin c stamp trans target : rotation (t_rot target) -> rotation (t_rot trans) -> p_posture c && p_align c = true ->
    let o := t_org (s_tf (process vertical c stamp trans target)) in
    exists M, rotation M /\ axis_z (mmul M (t_rot trans)) = V3 0 0 1 /\ (has_heading (t_rot trans) -> heading (t_rot trans) (axis_x (mmul M (t_rot trans)))) /\
    let turned := tpoint target (mvec M (t_org trans)) in
    (exists x y, o = tpoint target (V3 x y 0)) /\
    (forall x y, tpoint target (V3 x y 0) = o \/ dist o turned < dist (tpoint target (V3 x y 0)) turned).
  Proof.
    intros Ht Hr A. apply andb_prop in A as [P A]. cbv zeta. exists (mmul (yaw_of vertical (t_rot trans)) (transpose (t_rot trans))).
    assert (E : mmul (mmul (yaw_of vertical (t_rot trans)) (transpose (t_rot trans))) (t_rot trans) = yaw_of vertical (t_rot trans)).
    { rewrite mmul_assoc, (rotation_transpose_mul _ Hr). apply mmul_1_r. }
    split. { apply rotation_mul; [|apply rotation_transpose, Hr]. destruct (yaw_of_rotz _ Hr) as (x & y & -> & U). apply rotation_rotz, U. }
    rewrite E. split; [destruct (yaw_of_rotz _ Hr) as (x & y & -> & U); reflexivity|]. split.
    { intros Hh. destruct (yaw_of_heading _ Hr Hh) as (u & Hu & ->). destruct u as [x y z]. destruct Hu as [Z Hu]. cbn in Z. subst z. split; [reflexivity|exact Hu]. }
    set (M := mmul _ _).
    assert (O : t_org (s_tf (process vertical c stamp trans target)) = tpoint target (V3 (v_x (mvec M (t_org trans))) (v_y (mvec M (t_org trans))) 0)).
    { assert (Q : t_org (posture vertical c trans) = mvec M (t_org trans)).
      { unfold posture. rewrite P, A. cbn [tmul t_org]. fold M. unfold tpoint. cbn [t_rot t_org]. destruct (mvec M (t_org trans)). unfold vadd. cbn. apply v3_eq; cbn; ring. }
      unfold process. cbn [s_tf]. destruct (p_flat c); cbn [t_org]; unfold projectTranslation; cbn [tmul t_org]; rewrite Q; reflexivity. }
    rewrite O. split; [eauto|]. apply foot, Ht.
  Qed.
  (** So it makes no difference for a source that stands upright on the surface. *)
  Theorem C72_align_is_idle_when_upright fl tol stamp trans target : rotation (t_rot trans) -> axis_z (t_rot trans) = V3 0 0 1 ->
    process vertical (PConf fl true true tol) stamp trans target = process vertical (PConf fl true false tol) stamp trans target.
  Proof.
    intros Hr U. assert (E : exists x y, t_rot trans = rotz x y /\ x * x + y * y = 1).
    { destruct (rotation_rows _ Hr) as (R1 & R2 & R3 & R4 & R5 & R6). destruct (t_rot trans) as [[a b z1] [d e z2] [g h z3]]. unfold axis_z, dot, rotz in *. cbn in *. injection U as -> -> ->.
      assert (g = 0) by nra. assert (h = 0) by nra. subst g h. destruct Hr as (X & Y & O & Z). unfold axis_x, axis_y, axis_z, cross, dot in *. cbn in *. injection Z as Z1 Z2 Z3.
      exists a, d. split; [|nra]. repeat f_equal; nsatz. }
    destruct E as (x & y & E & UU). unfold process, posture. cbn [p_posture p_align p_flat p_tolerance].
    replace (tmul (Tf (mmul (yaw_of vertical (t_rot trans)) (transpose (t_rot trans))) (V3 0 0 0)) trans) with (Tf (yaw_of vertical (t_rot trans)) (t_org trans)); [reflexivity|].
    rewrite E, (yaw_of_level x y UU). assert (I : mmul (rotz x y) (transpose (rotz x y)) = I3).
    { unfold mmul, mvec, transpose, rotz, dot, I3. cbn. f_equal; apply v3_eq; cbn; lra. }
    rewrite I. unfold tmul, tpoint. cbn [t_rot t_org]. rewrite E, mmul_1_l, mvec_1. destruct (t_org trans). unfold vadd. cbn. f_equal. apply v3_eq; cbn; ring.
  Qed.

  (** The result is a rotation, whatever the settings. *)
  Theorem C72_result_is_rigid c stamp trans target : rotation (t_rot trans) -> rotation (t_rot target) -> rotation (t_rot (s_tf (process vertical c stamp trans target))).
  Proof.
    intros Hr Ht. assert (P : rotation (t_rot (projectTranslation (posture vertical c trans) target))).
    { unfold projectTranslation. cbn [tmul t_rot]. apply rotation_mul; [exact Ht|]. apply posture_rotation, Hr. }
    unfold process. cbn [s_tf]. destruct (p_flat c); [|exact P]. cbn [t_rot]. destruct (yaw_of_rotz _ P) as (x & y & -> & U). apply rotation_rotz, U.
  Qed.
  (** [project_posture]: the z axis becomes the normal of the surface and the heading is the source's, seen along the normal. *)
  Theorem C72_projected_posture c stamp trans target : rotation (t_rot trans) -> has_heading (t_rot trans) -> p_posture c = true -> p_flat c = false ->
    let r := t_rot (s_tf (process vertical c stamp trans target)) in
    axis_z r = axis_z (t_rot target) /\ exists u, heading (t_rot trans) u /\ axis_x r = mvec (t_rot target) u.
  Proof.
    intros Hr Hh P F. cbv zeta. assert (E : t_rot (s_tf (process vertical c stamp trans target)) = mmul (t_rot target) (yaw_of vertical (t_rot trans))).
    { unfold process. rewrite F. cbn [s_tf]. unfold projectTranslation. cbn [tmul t_rot]. rewrite (posture_rot c trans Hr P). reflexivity. }
    rewrite E. destruct (yaw_of_heading _ Hr Hh) as (u & Hu & ->). destruct u as [x y z], (t_rot target) as [[] [] []]. split.
    - unfold mmul, mvec, transpose, rotz, axis_z, dot. cbn. apply v3_eq; cbn; ring.
    - exists (V3 x y z). split; [exact Hu|]. destruct Hu as [Z _]. cbn in Z. subst z. unfold mmul, mvec, transpose, rotz, axis_x, dot. cbn. apply v3_eq; cbn; ring.
  Qed.
  (** Without it (and without [flat]) the posture is the source's. *)
  Theorem C72_kept_posture c stamp trans target : p_posture c = false -> p_flat c = false ->
    t_rot (s_tf (process vertical c stamp trans target)) = t_rot (tmul target trans).
  Proof. intros P F. unfold process, posture. rewrite P, F. reflexivity. Qed.
  (** [flat]: the z axis becomes the parent's, the heading and the origin are those of the result without [flat]. *)
  Theorem C72_flat tol po al stamp trans target : rotation (t_rot trans) -> rotation (t_rot target) ->
    let r := s_tf (process vertical (PConf true po al tol) stamp trans target) in
    let r0 := s_tf (process vertical (PConf false po al tol) stamp trans target) in
    t_org r = t_org r0 /\ axis_z (t_rot r) = V3 0 0 1 /\ (has_heading (t_rot r0) -> heading (t_rot r0) (axis_x (t_rot r))).
  Proof.
    intros Hr Ht. cbv zeta. set (c0 := PConf false po al tol). set (c := PConf true po al tol). pose proof (C72_result_is_rigid c0 stamp trans target Hr Ht) as R0.
    assert (E : s_tf (process vertical c stamp trans target) = Tf (yaw_of vertical (t_rot (s_tf (process vertical c0 stamp trans target)))) (t_org (s_tf (process vertical c0 stamp trans target)))) by reflexivity.
    rewrite E. cbn [t_org t_rot]. split; [reflexivity|]. split.
    - destruct (yaw_of_rotz _ R0) as (x & y & -> & _). reflexivity.
    - intros Hh. destruct (yaw_of_heading _ R0 Hh) as (u & Hu & ->). destruct u as [x y z]. destruct Hu as [Z Hu]. cbn in Z. subst z. split; [reflexivity|exact Hu].
  Qed.
  (** A frame that has been projected stays where it is when it is projected onto the same surface again. *)
  Lemma tmul_cancel a p q : rotation (t_rot a) -> tmul a p = tmul a q -> p = q.
  Proof.
    intros Ha H. destruct p as [rp op], q as [rq oq]. unfold tmul in H. cbn [t_rot t_org] in H.
    pose proof (f_equal t_rot H) as M. pose proof (f_equal t_org H) as Q. cbn [t_rot t_org] in M, Q.
    f_equal.
    - rewrite <- (mmul_1_l rp), <- (mmul_1_l rq). unfold I3. rewrite <- (rotation_transpose_mul _ Ha), !mmul_assoc, M. reflexivity.
    - rewrite <- (mvec_1 op), <- (mvec_1 oq). unfold I3. rewrite <- (rotation_transpose_mul _ Ha), !mmul_mvec. f_equal.
      unfold tpoint, vadd in Q. pose proof (f_equal v_x Q). pose proof (f_equal v_y Q). pose proof (f_equal v_z Q). cbn [v_x v_y v_z] in *. apply v3_eq; lra.
  Qed.
  Theorem C72_projecting_twice c stamp stamp' trans target again : rotation (t_rot trans) -> rotation (t_rot target) -> p_flat c = false \/ p_posture c = false ->
    tmul target again = s_tf (process vertical c stamp trans target) ->
    s_tf (process vertical c stamp' again target) = s_tf (process vertical c stamp trans target).
  Proof.
    intros Hr Ht F H. pose proof (C72_result_is_rigid c stamp trans target Hr Ht) as RR. destruct (p_flat c) eqn:FL.
    - destruct F as [F|P]; [discriminate|]. rewrite <- H in *. cbn [tmul t_rot] in RR.
      assert (H0 : tpoint target (t_org again) = tpoint target (V3 (v_x (t_org trans)) (v_y (t_org trans)) 0)).
      { unfold process, posture in H. rewrite P, FL in H. cbn [s_tf] in H. unfold projectTranslation in H. cbn [tmul t_rot t_org] in H. exact (f_equal t_org H). }
      assert (L : exists x y, mmul (t_rot target) (t_rot again) = rotz x y /\ x * x + y * y = 1).
      { assert (Q : mmul (t_rot target) (t_rot again) = yaw_of vertical (mmul (t_rot target) (t_rot trans))).
        { unfold process, posture in H. rewrite P, FL in H. cbn [s_tf] in H. unfold projectTranslation in H. cbn [tmul t_rot t_org] in H. apply (f_equal t_rot) in H. exact H. }
        rewrite Q. apply yaw_of_rotz. apply rotation_mul; assumption. }
      destruct L as (x & y & L & U). unfold process, posture. rewrite P, FL. cbn [s_tf]. unfold projectTranslation. cbn [tmul t_rot t_org]. rewrite L, (yaw_of_level x y U). unfold tmul. rewrite L. f_equal.
      assert (O : t_org again = V3 (v_x (t_org trans)) (v_y (t_org trans)) 0).
      { assert (K : tmul target (Tf I3 (t_org again)) = tmul target (Tf I3 (V3 (v_x (t_org trans)) (v_y (t_org trans)) 0))) by (unfold tmul; cbn [t_rot t_org]; f_equal; exact H0).
        apply (tmul_cancel target _ _ Ht) in K. apply (f_equal t_org) in K. exact K. }
      rewrite O. reflexivity.
    - clear F. assert (E : again = Tf (t_rot (posture vertical c trans)) (V3 (v_x (t_org (posture vertical c trans))) (v_y (t_org (posture vertical c trans))) 0)).
      { apply (tmul_cancel target _ _ Ht). rewrite H. unfold process. rewrite FL. reflexivity. }
      assert (PP : posture vertical c again = again).
      { unfold posture at 1. destruct (p_posture c) eqn:P; [|reflexivity].
        assert (T : t_rot again = yaw_of vertical (t_rot trans)) by (rewrite E; cbn [t_rot]; apply posture_rot; assumption).
        destruct (yaw_of_rotz _ Hr) as (x & y & Y & U). rewrite T, Y, (yaw_of_level x y U). destruct again as [ra oa]. cbn [t_rot t_org] in *. rewrite T, Y in *. destruct (p_align c); [|reflexivity].
        assert (I : mmul (rotz x y) (transpose (rotz x y)) = I3). { unfold mmul, mvec, transpose, rotz, dot, I3. cbn. f_equal; apply v3_eq; cbn; lra. }
        rewrite I. unfold tmul, tpoint. cbn [t_rot t_org]. rewrite mmul_1_l, mvec_1. destruct oa. unfold vadd. cbn. f_equal. apply v3_eq; cbn; ring. }
      unfold process at 1. rewrite FL, PP. cbn [s_tf]. rewrite <- H. unfold projectTranslation. f_equal. rewrite E. reflexivity.
  Qed.
  (** Static exactly for a static source; otherwise the stamp is the source's put off by the tolerance. *)
  Theorem C72_stamp c stamp trans target : (0 <= stamp)%Z -> (0 <= p_tolerance c)%Z ->
    let s := process vertical c stamp trans target in
    (s_static s = true <-> stamp = 0%Z) /\ (stamp = 0%Z -> s_stamp s = 0%Z) /\ (stamp <> 0%Z -> s_stamp s = (stamp + p_tolerance c)%Z).
  Proof.
    intros H0 H1. cbv zeta. unfold process. cbn [s_static s_stamp]. destruct (Z.eqb_spec stamp 0) as [->|N]; [rewrite Z.eqb_refl; intuition congruence|].
    destruct (Z.eqb_spec (stamp + p_tolerance c) 0); [exfalso; lia|]. intuition congruence.
  Qed.
End Node.

(** With [align_all_posture_to_source] the origin is not the foot of the perpendicular: a source at (1, 0, 0) on the surface, pitched up by the angle whose cosine is
    4/5, is projected to x = 4/5. *)
Definition id_tf : tf := Tf I3 (V3 0 0 0).
Definition pitched : tf := Tf (M3 (V3 (4 / 5) 0 (3 / 5)) (V3 0 1 0) (V3 (- (3 / 5)) 0 (4 / 5))) (V3 1 0 0).
Definition upright (_ : mat3) : R * R := (1, 0).
Lemma rotation_I3 : rotation I3.
Proof. unfold rotation, I3, axis_x, axis_y, axis_z, cross, dot. cbn. repeat split; try lra. apply v3_eq; cbn; lra. Qed.
Lemma rotation_pitched : rotation (t_rot pitched).
Proof. unfold rotation, pitched, axis_x, axis_y, axis_z, cross, dot. cbn. repeat split; try lra. apply v3_eq; cbn; lra. Qed.
Lemma heading_pitched : has_heading (t_rot pitched).
Proof. unfold has_heading, pitched, axis_x. cbn. apply Rabs_def1; lra. Qed.
Lemma yaw_pitched : yaw_of upright (t_rot pitched) = I3.
Proof.
  unfold yaw_of. destruct (Rlt_dec _ _) as [_|N]; [|contradiction N; exact heading_pitched]. cbn [pitched t_rot m_x m_y v_x].
  replace (4 / 5 * (4 / 5) + 0 * 0) with ((4 / 5) * (4 / 5)) by lra. rewrite sqrt_square by lra. unfold rotz, I3. f_equal; apply v3_eq; cbn; lra.
Qed.
Theorem C72_align_projects_to_the_nearest_point_refuted : exists vertical c stamp trans target,
  (forall m, fst (vertical m) * fst (vertical m) + snd (vertical m) * snd (vertical m) = 1) /\ rotation (t_rot trans) /\ rotation (t_rot target) /\ has_heading (t_rot trans) /\
  t_org (s_tf (process vertical c stamp trans target)) = V3 (4 / 5) 0 0 /\ source_in_parent trans target = V3 1 0 0.
Proof.
  exists upright, (PConf false true true 0), 1%Z, pitched, id_tf. split; [intros m; cbn; lra|]. split; [exact rotation_pitched|]. split; [exact rotation_I3|]. split; [exact heading_pitched|]. split.
  - unfold process, posture. cbn [p_posture p_align p_flat s_tf]. rewrite yaw_pitched. cbv [projectTranslation tmul tpoint mvec mmul transpose id_tf pitched I3 vadd dot source_in_parent t_rot t_org m_x m_y m_z v_x v_y v_z]. f_equal; lra.
  - cbv [projectTranslation tmul tpoint mvec mmul transpose id_tf pitched I3 vadd dot source_in_parent t_rot t_org m_x m_y m_z v_x v_y v_z]. f_equal; lra.
Qed.

(** A surface tilted about x, a metre up; the source hovers above it. *)
Definition tilted : tf := Tf (M3 (V3 1 0 0) (V3 0 (4 / 5) (- (3 / 5))) (V3 0 (3 / 5) (4 / 5))) (V3 0 0 1).
Example C72_ex_nearest : t_org (s_tf (process upright (PConf false true false 5) 10 (Tf (t_rot pitched) (V3 2 5 3)) tilted)) = V3 2 4 4.
Proof. unfold process, posture. cbn [p_posture p_align p_flat s_tf t_rot t_org]. cbv [projectTranslation tmul tpoint mvec mmul transpose id_tf tilted pitched I3 vadd dot source_in_parent t_rot t_org m_x m_y m_z v_x v_y v_z]. f_equal; lra. Qed.
Example C72_ex_hyp : rotation (t_rot tilted) /\ rotation (t_rot pitched) /\ has_heading (t_rot pitched) /\ has_heading (t_rot tilted).
Proof.
  split; [|split; [exact rotation_pitched|split; [exact heading_pitched|unfold has_heading, tilted, axis_x; cbn; rewrite Rabs_R0; lra]]].
  unfold rotation, tilted, axis_x, axis_y, axis_z, cross, dot. cbn. repeat split; try lra. apply v3_eq; cbn; lra.
Qed.
Example C72_ex_twice : tmul tilted (Tf I3 (V3 2 5 0)) = s_tf (process upright (PConf false true false 5) 10 (Tf (t_rot pitched) (V3 2 5 3)) tilted).
Proof.
  unfold process, posture. cbn [p_posture p_align p_flat s_tf t_rot t_org]. rewrite yaw_pitched. reflexivity.
Qed.

Print Assumptions C72_origin_is_the_nearest_point_of_the_surface.
Print Assumptions C72_aligned_origin.
Print Assumptions C72_align_is_idle_when_upright.
Print Assumptions C72_result_is_rigid.
Print Assumptions C72_projected_posture.
Print Assumptions C72_kept_posture.
Print Assumptions C72_flat.
Print Assumptions C72_projecting_twice.
Print Assumptions C72_stamp.
Print Assumptions C72_align_projects_to_the_nearest_point_refuted.
