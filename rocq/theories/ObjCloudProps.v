(** C73: the cloud made of point clouds and triangle meshes. *)
From Coq Require Import Reals ZArith Ascii String Lra Psatz.
From Verif Require Import Common TfProjection Occlusion OcclusionProps ObjCloud.
Local Open Scope list_scope.
Local Open Scope R_scope.

(** *** Specification *)
(** [p] is the point [q] of the file, scaled and moved. *)
Definition placed (c : cconf) (q p : vec3) : Prop :=
  v_x p = scale c * v_x q + v_x (offset c) /\ v_y p = scale c * v_y q + v_y (offset c) /\ v_z p = scale c * v_z q + v_z (offset c).
(** [q] is a weighted mean of the three corners. *)
Definition in_triangle (v0 v1 v2 q : vec3) : Prop := exists w0 w1 w2, 0 <= w0 /\ 0 <= w1 /\ 0 <= w2 /\ w0 + w1 + w2 = 1 /\
  v_x q = w0 * v_x v0 + w1 * v_x v1 + w2 * v_x v2 /\ v_y q = w0 * v_y v0 + w1 * v_y v1 + w2 * v_y v2 /\ v_z q = w0 * v_z v0 + w1 * v_z v1 + w2 * v_z v2.
(** The area of a triangle, from the lengths of two sides and their inner product. *)
Definition area (v0 v1 v2 : vec3) : R :=
  sqrt (dot (vminus v1 v0) (vminus v1 v0) * dot (vminus v2 v0) (vminus v2 v0) - dot (vminus v1 v0) (vminus v2 v0) * dot (vminus v1 v0) (vminus v2 v0)) / 2.
(** The points [l] that a face contributes. *)
Definition face_part (c : cconf) (vs : list vec3) (poly : list nat) (l : list vec3) : Prop :=
  exists i j k v0 v1 v2, poly = [i; j; k] /\ nth_error vs i = Some v0 /\ nth_error vs j = Some v1 /\ nth_error vs k = Some v2 /\
  Forall (fun p => exists q, in_triangle v0 v1 v2 q /\ placed c q p) l /\
  let n := INR (length l) in let want := ppmsq c * (scale c * scale c * area v0 v1 v2) in want - 1 < n < want + 1.
Section Files.
  Variable load_pcd : name -> option (list vec3).
  Variable load_obj : name -> option mesh.
  (** The name ends in a dot and [e], or is [e]. *)
  Definition has_ext (f e : name) : Prop := (exists p, f = p ++ "."%char :: e) \/ f = e.
  Definition file_part (c : cconf) (f : name) (l : list vec3) : Prop :=
    (has_ext f PCD /\ exists pts, load_pcd f = Some pts /\ Forall2 (placed c) pts l) \/
    (has_ext f OBJ /\ exists m ps, load_obj f = Some m /\ l = concat ps /\ Forall2 (face_part c (verts m)) (polygons m) ps) \/
    (~ has_ext f PCD /\ ~ has_ext f OBJ /\ l = []).
  (** A file that makes the node give up. *)
  Definition bad_file (f : name) : Prop :=
    (has_ext f PCD /\ load_pcd f = None) \/ (has_ext f OBJ /\ load_obj f = None) \/
    (has_ext f OBJ /\ exists m poly, load_obj f = Some m /\ In poly (polygons m) /\ length poly <> 3%nat).
  (** Every triangle refers to vertices of the file and is not beyond counting. *)
  Definition sane_file (c : cconf) (f : name) : Prop :=
    has_ext f OBJ -> forall m, load_obj f = Some m -> forall i j k, In [i; j; k] (polygons m) ->
    exists v0 v1 v2, nth_error (verts m) i = Some v0 /\ nth_error (verts m) j = Some v1 /\ nth_error (verts m) k = Some v2 /\
      Rabs (ppmsq c * (scale c * scale c * area v0 v1 v2)) < 2147483647.
End Files.
(** The names of a list with commas. *)
Fixpoint join (fs : list name) : name := match fs with [] => [] | [f] => f | f :: fs' => f ++ ","%char :: join fs' end.

Lemma Ok_inj {A} (a b : A) : Ok a = Ok b -> b = a.
Proof. congruence. Qed.

(** *** Names *)
Lemma fields_spec d s : forall acc, Forall (fun f => ~ In d f) (fields d acc s) \/ In d acc.
Proof.
  induction s as [|ch s IH]; intros acc; cbn [fields].
  - destruct (in_dec ascii_dec d acc) as [H|H]; [right; exact H|left]. destruct acc; [constructor|]. constructor; [rewrite <- in_rev; exact H|constructor].
  - destruct (Ascii.eqb_spec ch d) as [->|N].
    + destruct (in_dec ascii_dec d acc) as [H|H]; [right; exact H|left]. constructor; [rewrite <- in_rev; exact H|]. destruct (IH []) as [G|[]]. exact G.
    + destruct (IH (ch :: acc)) as [G|[G|G]]; [left; exact G|congruence|right; exact G].
Qed.
Lemma join_cons f fs : fs <> [] -> join (f :: fs) = f ++ ","%char :: join fs.
Proof. destruct fs; [congruence|reflexivity]. Qed.
Lemma fields_join s : forall acc, join (fields ","%char acc s) = rev acc ++ s \/ (exists t, rev acc ++ s = t ++ [","%char] /\ join (fields ","%char acc s) = t).
Proof.
  induction s as [|ch s IH]; intros acc; cbn [fields].
  - left. destruct acc; [reflexivity|]. cbn [join]. rewrite app_nil_r. reflexivity.
  - destruct (Ascii.eqb_spec ch ","%char) as [->|N].
    + destruct s as [|ch' s]; [right; exists (rev acc); split; reflexivity|]. rewrite join_cons.
      * destruct (IH []) as [G|(t & G1 & G2)].
        -- left. rewrite G. reflexivity.
        -- right. exists (rev acc ++ ","%char :: t). rewrite G2. split; [|reflexivity]. cbn [rev app] in G1. rewrite G1, <- app_assoc. reflexivity.
      * cbn [fields]. destruct (Ascii.eqb ch' ","); [discriminate|]. assert (X : forall s (acc : name), acc <> [] -> fields "," acc s <> []).
        { clear. induction s as [|x s IH]; intros acc H; cbn [fields]; [destruct acc; congruence|]. destruct (Ascii.eqb x ","); [discriminate|]. apply IH. discriminate. }
        apply X. discriminate.
    + specialize (IH (ch :: acc)). cbn [rev] in IH. rewrite <- app_assoc in IH. exact IH.
Qed.
(** The files are the comma-separated names of the parameter, in order; a comma at the end is ignored. *)
Theorem C73_names objs : Forall (fun f => ~ In ","%char f) (split objs ",") /\
  (join (split objs ",") = objs \/ join (split objs ",") ++ [","%char] = objs).
Proof.
  split; [destruct (fields_spec "," objs []) as [H|[]]; exact H|]. destruct (fields_join objs []) as [H|(t & H1 & H2)]; [left; exact H|right]. cbn [rev app] in H1. unfold split. rewrite H1 in *. rewrite H2. reflexivity.
Qed.
Lemma ext_go_spec r : forall acc, (~ In "."%char r /\ ext_go r acc = rev r ++ acc) \/ (exists r1 r2, r = r1 ++ "."%char :: r2 /\ ~ In "."%char r1 /\ ext_go r acc = rev r1 ++ acc).
Proof.
  induction r as [|x r IH]; intros acc; cbn [ext_go]; [left; split; [intros []|reflexivity]|]. destruct (Ascii.eqb_spec x ".") as [->|N].
  - right. exists [], r. repeat split. intros [].
  - destruct (IH (x :: acc)) as [[H E]|(r1 & r2 & -> & H & E)].
    + left. split; [intros [G|G]; [congruence|exact (H G)]|]. rewrite E. cbn [rev]. rewrite <- app_assoc. reflexivity.
    + right. exists (x :: r1), r2. split; [reflexivity|]. split; [intros [G|G]; [congruence|exact (H G)]|]. rewrite E. cbn [rev]. rewrite <- app_assoc. reflexivity.
Qed.
Lemma last_dot (p p' e e' : name) : ~ In "."%char e -> ~ In "."%char e' -> p ++ "."%char :: e = p' ++ "."%char :: e' -> e = e'.
Proof.
  intros H H' E. apply (f_equal (@rev ascii)) in E. rewrite !rev_app_distr in E. cbn [rev] in E. rewrite <- !app_assoc in E. cbn [app] in E.
  rewrite in_rev in H, H'. rewrite <- (rev_involutive e), <- (rev_involutive e'). f_equal. revert E H H'. generalize (rev e) (rev e') (rev p) (rev p'). clear.
  intros a. induction a as [|x a IH]; intros b p p' E H H'; destruct b as [|y b]; cbn [app] in E.
  - reflexivity.
  - injection E as E _. subst. exfalso. apply H'. left. reflexivity.
  - injection E as E _. subst. exfalso. apply H. left. reflexivity.
  - injection E as -> E. f_equal. apply (IH b p p' E); intros G; [apply H|apply H']; right; exact G.
Qed.
Lemma ext_has f e : ~ In "."%char e -> (ext f = e <-> has_ext f e).
Proof.
  intros N. unfold ext, has_ext. destruct (ext_go_spec (rev f) []) as [[H E]|(r1 & r2 & E1 & H & E)]; rewrite E, app_nil_r.
  - rewrite rev_involutive. split; [auto|]. intros [[p ->]| ->]; [|reflexivity]. exfalso. apply H. rewrite <- in_rev. apply in_elt.
  - apply (f_equal (@rev ascii)) in E1. rewrite rev_involutive, rev_app_distr in E1. cbn [rev] in E1. rewrite <- app_assoc in E1. cbn [app] in E1. assert (H' : ~ In "."%char (rev r1)) by (rewrite <- in_rev; exact H).
    split; [intros <-; left; eauto|]. intros [[p ->]| ->]; [symmetry; eapply last_dot; eauto|]. exfalso. apply N. rewrite E1. apply in_elt.
Qed.
Lemma pcd_nodot : ~ In "."%char PCD.
Proof. intros [H|[H|[H|[]]]]; discriminate. Qed.
Lemma obj_nodot : ~ In "."%char OBJ.
Proof. intros [H|[H|[H|[]]]]; discriminate. Qed.

(** *** Triangles *)
Lemma face_area_gram k v0 v1 v2 : face_area (vminus (vscale k v1) (vscale k v0)) (vminus (vscale k v2) (vscale k v0)) = k * k * area v0 v1 v2.
Proof.
  unfold face_area, area. destruct v0 as [x0 y0 z0], v1 as [x1 y1 z1], v2 as [x2 y2 z2]. unfold vminus, vscale, dot. cbn [v_x v_y v_z].
  match goal with |- _ * sqrt ?A = _ * (sqrt ?B / 2) => replace A with ((k * k) * (k * k) * B) by ring; assert (P : 0 <= B) end.
  { match goal with |- 0 <= ?B => replace B with (((y1 - y0) * (z2 - z0) - (z1 - z0) * (y2 - y0)) ^ 2 + ((z1 - z0) * (x2 - x0) - (x1 - x0) * (z2 - z0)) ^ 2 + ((x1 - x0) * (y2 - y0) - (y1 - y0) * (x2 - x0)) ^ 2) by ring end.
    repeat apply Rplus_le_le_0_compat; apply pow2_ge_0. }
  assert (0 <= k * k) by (apply Rle_0_sqr). rewrite sqrt_mult by (try assumption; apply Rmult_le_pos; assumption). rewrite sqrt_square by assumption. field.
Qed.
Lemma area_pos v0 v1 v2 : 0 <= area v0 v1 v2.
Proof. unfold area. pose proof (sqrt_pos (dot (vminus v1 v0) (vminus v1 v0) * dot (vminus v2 v0) (vminus v2 v0) - dot (vminus v1 v0) (vminus v2 v0) * dot (vminus v1 v0) (vminus v2 v0))). lra. Qed.

Section Convert.
  Variable c : cconf.
  Variable u : nat -> R.
  Variable load_pcd : name -> option (list vec3).
  Variable load_obj : name -> option mesh.
  Hypothesis draws : forall n, 0 <= u n <= 1.
  Hypothesis dense : 0 <= ppmsq c.

  Lemma sample_length p0 a b n : forall k, length (sample c u n k p0 a b) = n.
  Proof. induction n as [|n IH]; intros k; [reflexivity|]. cbn [sample]. destruct (Rlt_dec 1 _); cbn [length]; rewrite IH; reflexivity. Qed.
  Lemma sample_in v0 v1 v2 n : forall k,
    Forall (fun p => exists q, in_triangle v0 v1 v2 q /\ placed c q p) (sample c u n k (vscale (scale c) v0) (vminus (vscale (scale c) v1) (vscale (scale c) v0)) (vminus (vscale (scale c) v2) (vscale (scale c) v0))).
  Proof.
    induction n as [|n IH]; intros k; [constructor|]. cbn [sample].
    assert (W : forall r0 r1, 0 <= r0 -> 0 <= r1 -> r0 + r1 <= 1 ->
      exists q, in_triangle v0 v1 v2 q /\ placed c q (vadd (vadd (vscale (scale c) v0) (vadd (vscale r0 (vminus (vscale (scale c) v1) (vscale (scale c) v0))) (vscale r1 (vminus (vscale (scale c) v2) (vscale (scale c) v0))))) (offset c))).
    { intros r0 r1 H0 H1 H2. exists (V3 ((1 - r0 - r1) * v_x v0 + r0 * v_x v1 + r1 * v_x v2) ((1 - r0 - r1) * v_y v0 + r0 * v_y v1 + r1 * v_y v2) ((1 - r0 - r1) * v_z v0 + r0 * v_z v1 + r1 * v_z v2)).
      split; [exists (1 - r0 - r1), r0, r1; cbn [v_x v_y v_z]; repeat split; lra|]. unfold placed, vadd, vscale, vminus. cbn [v_x v_y v_z]. repeat split; ring. }
    pose proof (draws k). pose proof (draws (S k)). destruct (Rlt_dec 1 (u k + u (S k))) as [L|L]; constructor; try apply IH; apply W; lra.
  Qed.
  Lemma face_ok vs st poly r : face c u (map (vscale (scale c)) vs) st poly = Ok r ->
    match r with None => length poly <> 3%nat | Some st' => exists l, snd st' = snd st ++ l /\ face_part c vs poly l end.
  Proof.
    unfold face. destruct poly as [|i [|j [|k [|? ?]]]]; try (intros H; apply Ok_inj in H; subst; cbn; lia).
    rewrite !nth_error_map. destruct (nth_error vs i) as [v0|] eqn:E0; cbn [option_map]; [|discriminate]. destruct (nth_error vs j) as [v1|] eqn:E1; cbn [option_map]; [|discriminate]. destruct (nth_error vs k) as [v2|] eqn:E2; cbn [option_map]; [|discriminate].
    cbv zeta. destruct (face_num c u (fst st) _ _) as [num|] eqn:N; [|discriminate]. cbn [bind]. intros H. apply Ok_inj in H. subst r. cbn [snd].
    eexists. split; [reflexivity|]. exists i, j, k, v0, v1, v2. repeat split; try assumption; [apply sample_in| |]; rewrite sample_length.
    all: unfold face_num in N; rewrite face_area_gram in N; set (want := ppmsq c * (scale c * scale c * area v0 v1 v2)) in *;
      assert (W0 : 0 <= want) by (unfold want; apply Rmult_le_pos; [exact dense|]; apply Rmult_le_pos; [apply Rle_0_sqr|apply area_pos]);
      destruct (Rlt_dec (Rabs want) 2147483647); [|discriminate]; apply Ok_inj in N;
      destruct (proj1 (truncR_pos want _ W0) eq_refl) as [T1 T2];
      assert (T0 : (0 <= truncR want)%Z) by (apply Z.lt_succ_r, lt_IZR; rewrite succ_IZR; lra);
      rewrite INR_IZR_INZ, Z2Nat.id by (subst num; destruct (Rlt_dec _ _); lia); pose proof (draws (fst st));
      destruct (Rlt_dec (u (fst st)) (want - IZR (truncR want))); subst num; rewrite ?plus_IZR; lra.
  Qed.
  Lemma faces_ok vs ps : forall st r, faces c u (map (vscale (scale c)) vs) st ps = Ok r ->
    match r with None => exists poly, In poly ps /\ length poly <> 3%nat | Some st' => exists ls, snd st' = snd st ++ concat ls /\ Forall2 (face_part c vs) ps ls end.
  Proof.
    induction ps as [|p ps IH]; intros st r; cbn [faces].
    - intros H. apply Ok_inj in H. subst r. exists []. cbn [concat]. rewrite app_nil_r. split; [reflexivity|constructor].
    - destruct (face c u _ st p) as [r1|] eqn:E; [|discriminate]. cbn [bind]. apply face_ok in E. destruct r1 as [st1|].
      + destruct E as (l & E & F). intros H. apply IH in H. destruct r as [st'|].
        * destruct H as (ls & H & G). exists (l :: ls). cbn [concat]. rewrite H, E, app_assoc. split; [reflexivity|constructor; assumption].
        * destruct H as (poly & H & G). exists poly. split; [right; exact H|exact G].
      + intros H. apply Ok_inj in H. subst r. exists p. split; [left; reflexivity|exact E].
  Qed.
  Lemma file_ok st f r : file_step c u load_pcd load_obj st f = Ok r ->
    match r with None => bad_file load_pcd load_obj f | Some st' => exists l, snd st' = snd st ++ l /\ file_part load_pcd load_obj c f l end.
  Proof.
    unfold file_step. pose proof (ext_has f PCD pcd_nodot) as XP. pose proof (ext_has f OBJ obj_nodot) as XO.
    destruct (list_eq_dec ascii_dec (ext f) PCD) as [E|E].
    - destruct (load_pcd f) as [pts|] eqn:L; intros H; apply Ok_inj in H; subst r.
      + eexists. split; [reflexivity|]. left. split; [apply XP, E|]. exists pts. split; [exact L|]. clear. induction pts as [|p pts IH]; cbn [map]; constructor; [|exact IH].
        unfold placed, vadd, vscale. cbn [v_x v_y v_z]. repeat split; ring.
      + left. split; [apply XP, E|exact L].
    - destruct (list_eq_dec ascii_dec (ext f) OBJ) as [E'|E'].
      + destruct (load_obj f) as [m|] eqn:L.
        * intros H. apply faces_ok in H. destruct r as [st'|].
          -- destruct H as (ls & H & G). exists (concat ls). split; [exact H|]. right. left. split; [apply XO, E'|]. exists m, ls. auto.
          -- destruct H as (poly & H & G). right. right. split; [apply XO, E'|]. exists m, poly. auto.
        * intros H. apply Ok_inj in H. subst r. right. left. split; [apply XO, E'|exact L].
      + intros H. apply Ok_inj in H. subst r. exists []. rewrite app_nil_r. split; [reflexivity|]. right. right. rewrite <- XP, <- XO. auto.
  Qed.
  Lemma files_ok fs : forall st r, files c u load_pcd load_obj st fs = Ok r ->
    match r with None => Exists (bad_file load_pcd load_obj) fs | Some st' => exists ls, snd st' = snd st ++ concat ls /\ Forall2 (file_part load_pcd load_obj c) fs ls end.
  Proof.
    induction fs as [|f fs IH]; intros st r; cbn [files].
    - intros H. apply Ok_inj in H. subst r. exists []. cbn [concat]. rewrite app_nil_r. split; [reflexivity|constructor].
    - destruct (file_step c u load_pcd load_obj st f) as [r1|] eqn:E; [|discriminate]. cbn [bind]. apply file_ok in E. destruct r1 as [st1|].
      + destruct E as (l & E & F). intros H. apply IH in H. destruct r as [st'|].
        * destruct H as (ls & H & G). exists (l :: ls). cbn [concat]. rewrite H, E, app_assoc. split; [reflexivity|constructor; assumption].
        * right. exact H.
      + intros H. apply Ok_inj in H. subst r. left. exact E.
  Qed.
  (** The cloud is, file by file, the points of the point clouds and points on the triangles of the meshes, scaled and moved; every triangle has as many points
      as its area (after scaling) times the density, up to less than one. *)
  Theorem C73_cloud objs l : convert c u load_pcd load_obj objs = Ok (Cloud l) ->
    exists parts, l = concat parts /\ Forall2 (file_part load_pcd load_obj c) (split objs ",") parts.
  Proof.
    unfold convert. destruct objs as [|ch objs]; [intros H; apply Ok_inj in H; discriminate|]. destruct (files _ _ _ _ _ _) as [r|] eqn:E; [|discriminate]. cbn [bind]. intros H. apply Ok_inj in H.
    destruct r as [[k l']|]; [|discriminate]. injection H as ->. apply files_ok in E. destruct E as (ls & E & F). cbn [snd app] in E. eauto.
  Qed.
  (** There is no cloud exactly if no file is named or a named file cannot be read or has a face that is not a triangle. *)
  Lemma faces_bad vs ps : forall st r, faces c u vs st ps = Ok r -> (exists poly, In poly ps /\ length poly <> 3%nat) -> r = None.
  Proof.
    induction ps as [|p ps IH]; intros st r; cbn [faces]; [intros _ (poly & [] & _)|]. destruct (face c u vs st p) as [r1|] eqn:E; [|discriminate]. cbn [bind]. intros H (poly & [->|I] & N).
    - unfold face in E. destruct poly as [|i [|j [|k [|? ?]]]]; try (apply Ok_inj in E; subst r1; apply Ok_inj in H; exact H). contradiction N. reflexivity.
    - destruct r1 as [st1|]; [|apply Ok_inj in H; exact H]. apply (IH st1 r H). eauto.
  Qed.
  Theorem C73_no_cloud objs v : convert c u load_pcd load_obj objs = Ok v ->
    (v = Shutdown <-> objs = [] \/ Exists (bad_file load_pcd load_obj) (split objs ",")).
  Proof.
    unfold convert. destruct objs as [|ch objs]; [intros H; apply Ok_inj in H; subst v; split; auto|]. destruct (files _ _ _ _ _ _) as [r|] eqn:E; [|discriminate]. cbn [bind]. intros H. apply Ok_inj in H.
    assert (B : Exists (bad_file load_pcd load_obj) (split (ch :: objs) ",") -> r = None).
    { revert E. generalize (0%nat, @nil vec3) as st. generalize (split (ch :: objs) ",") as fs. clear H. induction fs as [|f fs IH]; intros st E X; [inversion X|]. cbn [files] in E.
      destruct (file_step c u load_pcd load_obj st f) as [r1|] eqn:F; [|discriminate]. cbn [bind] in E. inversion X as [? ? B|? ? B]; subst.
      - assert (r1 = None); [|subst r1; apply Ok_inj in E; exact E]. unfold file_step in F. pose proof (ext_has f PCD pcd_nodot) as XP. pose proof (ext_has f OBJ obj_nodot) as XO.
        assert (D : PCD <> OBJ) by discriminate.
        destruct B as [[B L]|[[B L]|[B (m & poly & L & I & N)]]].
        + apply XP in B. destruct (list_eq_dec ascii_dec (ext f) PCD); [|contradiction]. rewrite L in F. apply Ok_inj in F. exact F.
        + apply XO in B. destruct (list_eq_dec ascii_dec (ext f) PCD); [congruence|]. destruct (list_eq_dec ascii_dec (ext f) OBJ); [|contradiction]. rewrite L in F. apply Ok_inj in F. exact F.
        + apply XO in B. destruct (list_eq_dec ascii_dec (ext f) PCD); [congruence|]. destruct (list_eq_dec ascii_dec (ext f) OBJ); [|contradiction]. rewrite L in F. apply (faces_bad _ _ _ _ F). eauto.
      - destruct r1 as [st1|]; [|apply Ok_inj in E; exact E]. exact (IH st1 E B). }
    split.
    - intros ->. right. destruct r as [[k l]|]; [discriminate|]. apply files_ok in E. exact E.
    - intros [C|X]; [discriminate|]. rewrite (B X) in H. exact H.
  Qed.
  (** Files whose triangles refer to their vertices do not lead to undefined behaviour. *)
  Theorem C73_defined objs : Forall (sane_file load_obj c) (split objs ",") -> exists v, convert c u load_pcd load_obj objs = Ok v.
  Proof.
    intros S. unfold convert. destruct objs as [|ch objs]; [eauto|]. assert (G : exists r, files c u load_pcd load_obj (0%nat, []) (split (ch :: objs) ",") = Ok r); [|destruct G as [r ->]; cbn [bind]; eauto].
    revert S. generalize (0%nat, @nil vec3) as st. generalize (split (ch :: objs) ",") as fs. induction fs as [|f fs IH]; intros st S; cbn [files]; [eauto|]. inversion S as [|? ? S1 S2]; subst.
    assert (G : exists r, file_step c u load_pcd load_obj st f = Ok r).
    { unfold file_step. destruct (list_eq_dec ascii_dec (ext f) PCD) as [|NP]; [destruct (load_pcd f); eauto|]. destruct (list_eq_dec ascii_dec (ext f) OBJ) as [O|]; [|eauto]. destruct (load_obj f) as [m|] eqn:L; [|eauto].
      apply (ext_has f OBJ obj_nodot) in O. specialize (S1 O m L). clear - S1. revert st S1. generalize (polygons m) as ps. induction ps as [|p ps IH]; intros st S1; cbn [faces]; [eauto|].
      assert (G : exists r, face c u (map (vscale (scale c)) (verts m)) st p = Ok r).
      { unfold face. destruct p as [|i [|j [|k [|? ?]]]]; eauto. destruct (S1 i j k (or_introl eq_refl)) as (v0 & v1 & v2 & E0 & E1 & E2 & B).
        rewrite !nth_error_map, E0, E1, E2. cbn [option_map]. cbv zeta. unfold face_num. rewrite face_area_gram. destruct (Rlt_dec _ _); [|contradiction]. cbn [bind]. eauto. }
      destruct G as [r ->]. cbn [bind]. destruct r; [|eauto]. apply IH. intros i j k I. apply S1. right. exact I. }
    destruct G as [r ->]. cbn [bind]. destruct r; [|eauto]. apply IH, S2.
  Qed.
  (** Fair rounding: the number of points is rounded up exactly if the draw is below the fraction, so for an even draw the mean is the wanted number. *)
  Theorem C73_rounding_is_fair k a b n : 0 <= ppmsq c * face_area a b -> face_num c u k a b = Ok n ->
    exists f, (IZR f <= ppmsq c * face_area a b < IZR f + 1) /\ (u k < ppmsq c * face_area a b - IZR f -> n = (f + 1)%Z) /\ (ppmsq c * face_area a b - IZR f <= u k -> n = f).
  Proof.
    intros P. unfold face_num. set (w := ppmsq c * face_area a b) in *. destruct (Rlt_dec (Rabs w) 2147483647); [|discriminate]. intros H. apply Ok_inj in H. exists (truncR w). split; [apply (proj1 (truncR_pos w _ P)); reflexivity|].
    split; intros L; destruct (Rlt_dec (u k) (w - IZR (truncR w))); subst n; try reflexivity; lra.
  Qed.
  (** Even density: a point inside of the triangle, with the weights w1, w2 of its second and third corner, is drawn by exactly two pairs of draws, (w1, w2) and (1 - w1, 1 - w2):
      the unit square of draws covers the triangle evenly, twice. *)
  Theorem C73_density_is_even k p0 a b w1 w2 : 0 < w1 -> 0 < w2 -> w1 + w2 < 1 -> 0 < face_area a b ->
    (sample c u 1 k p0 a b = [vadd (vadd p0 (vadd (vscale w1 a) (vscale w2 b))) (offset c)] <->
     (u k = w1 /\ u (S k) = w2) \/ (u k = 1 - w1 /\ u (S k) = 1 - w2)).
  Proof.
    intros H1 H2 H3 A. cbn [sample].
    assert (U : forall r0 r1, vadd (vadd p0 (vadd (vscale r0 a) (vscale r1 b))) (offset c) = vadd (vadd p0 (vadd (vscale w1 a) (vscale w2 b))) (offset c) -> r0 = w1 /\ r1 = w2).
    { intros r0 r1 E. unfold vadd, vscale in E. injection E as EX EY EZ. destruct a as [ax ay az], b as [bx bY bz]. cbn [v_x v_y v_z] in *. unfold face_area in A. cbn [v_x v_y v_z] in A.
      set (d := r0 - w1). set (e := r1 - w2). assert (X : d * ax + e * bx = 0) by (unfold d, e; lra). assert (Y : d * ay + e * bY = 0) by (unfold d, e; lra). assert (Z : d * az + e * bz = 0) by (unfold d, e; lra).
      set (g1 := ay * bz - az * bY) in *. set (g2 := az * bx - ax * bz) in *. set (g3 := ax * bY - ay * bx) in *.
      assert (G : 0 < g1 ^ 2 + g2 ^ 2 + g3 ^ 2). { destruct (Rle_or_lt (g1 ^ 2 + g2 ^ 2 + g3 ^ 2) 0) as [L|L]; [|exact L]. exfalso. rewrite (sqrt_neg_0 _ L) in A. lra. }
      assert (D1 : d * g1 = 0) by (replace (d * g1) with ((d * ay + e * bY) * bz - (d * az + e * bz) * bY) by (unfold g1; ring); rewrite Y, Z; ring). assert (D2 : d * g2 = 0) by (replace (d * g2) with ((d * az + e * bz) * bx - (d * ax + e * bx) * bz) by (unfold g2; ring); rewrite X, Z; ring). assert (D3 : d * g3 = 0) by (replace (d * g3) with ((d * ax + e * bx) * bY - (d * ay + e * bY) * bx) by (unfold g3; ring); rewrite X, Y; ring). 
      assert (E1 : e * g1 = 0) by (replace (e * g1) with (ay * (d * az + e * bz) - az * (d * ay + e * bY)) by (unfold g1; ring); rewrite Y, Z; ring). assert (E2 : e * g2 = 0) by (replace (e * g2) with (az * (d * ax + e * bx) - ax * (d * az + e * bz)) by (unfold g2; ring); rewrite X, Z; ring). assert (E3 : e * g3 = 0) by (replace (e * g3) with (ax * (d * ay + e * bY) - ay * (d * ax + e * bx)) by (unfold g3; ring); rewrite X, Y; ring). 
      assert (D : d * (g1 ^ 2 + g2 ^ 2 + g3 ^ 2) = 0). { replace (d * (g1 ^ 2 + g2 ^ 2 + g3 ^ 2)) with (d * g1 * g1 + d * g2 * g2 + d * g3 * g3) by ring. rewrite D1, D2, D3. ring. }
      assert (E : e * (g1 ^ 2 + g2 ^ 2 + g3 ^ 2) = 0). { replace (e * (g1 ^ 2 + g2 ^ 2 + g3 ^ 2)) with (e * g1 * g1 + e * g2 * g2 + e * g3 * g3) by ring. rewrite E1, E2, E3. ring. }
      apply Rmult_integral in D as [D|D]; [|lra]. apply Rmult_integral in E as [E|E]; [|lra]. unfold d in D. unfold e in E. lra. }
    destruct (Rlt_dec 1 (u k + u (S k))) as [L|L]; split.
    - intros E. apply (f_equal (fun l => hd p0 l)) in E. cbn [hd] in E. apply U in E. right. lra.
    - intros [[E1 E2]|[E1 E2]]; [lra|]. rewrite E1, E2. replace (1 - (1 - w1)) with w1 by ring. replace (1 - (1 - w2)) with w2 by ring. reflexivity.
    - intros E. apply (f_equal (fun l => hd p0 l)) in E. cbn [hd] in E. apply U in E. left. lra.
    - intros [[E1 E2]|[E1 E2]]; [rewrite E1, E2; reflexivity|lra].
  Qed.
  (** Independent draws: the i-th point of a face, from the k-th draw on, is made of the draws k + 2 i and k + 2 i + 1 alone; a face uses one draw, then two for each of its points, and no
      other draw, and the next face goes on after them: no draw is used twice. *)
  Theorem C73_points_use_their_own_draws n k p0 a b i q : nth_error (sample c u n k p0 a b) i = Some q -> sample c u 1 (k + 2 * i) p0 a b = [q].
  Proof.
    revert k i. induction n as [|n IH]; intros k i; cbn [sample]; [destruct i; discriminate|]. destruct i as [|i].
    - replace (k + 2 * 0)%nat with k by lia. destruct (if Rlt_dec 1 (u k + u (S k)) then _ else _) as [r0 r1]. cbn [nth_error]. intros E. injection E as <-. reflexivity.
    - destruct (if Rlt_dec 1 (u k + u (S k)) then _ else _) as [r0 r1]. cbn [nth_error]. intros E. apply IH in E. replace (k + 2 * S i)%nat with (S (S k) + 2 * i)%nat by lia. exact E.
  Qed.
  Lemma sample_len n : forall k p0 a b, length (sample c u n k p0 a b) = n.
  Proof. induction n as [|n IH]; intros; cbn [sample]; [reflexivity|]. destruct (if Rlt_dec 1 (u k + u (S k)) then _ else _) as [r0 r1]. cbn [length]. rewrite IH. reflexivity. Qed.
  Lemma sample_ext u' n : forall k p0 a b, (forall j, (k <= j < k + 2 * n)%nat -> u' j = u j) -> sample c u' n k p0 a b = sample c u n k p0 a b.
  Proof.
    induction n as [|n IH]; intros k p0 a b H; cbn [sample]; [reflexivity|]. rewrite (H k), (H (S k)) by lia. destruct (if Rlt_dec 1 (u k + u (S k)) then _ else _) as [r0 r1].
    f_equal. apply IH. intros j J. apply H. lia.
  Qed.
  Theorem C73_faces_use_their_own_draws pts st poly st' : face c u pts st poly = Ok (Some st') ->
    exists ls, snd st' = snd st ++ ls /\ fst st' = (fst st + 1 + 2 * length ls)%nat /\
      forall u' l0, (forall j, (fst st <= j < fst st')%nat -> u' j = u j) -> face c u' pts (fst st, l0) poly = Ok (Some (fst st', l0 ++ ls)).
  Proof.
    unfold face. destruct poly as [|i [|j [|l [|? ?]]]]; try discriminate. destruct (nth_error pts i) as [p0|]; [|discriminate]. destruct (nth_error pts j) as [p1|]; [|discriminate].
    destruct (nth_error pts l) as [p2|]; [|discriminate]. cbv zeta. destruct (face_num c u (fst st) _ _) as [num|] eqn:E; [|discriminate]. cbn [bind]. intros H. apply Ok_inj in H. apply (f_equal (fun o => match o with Some x => x | None => st' end)) in H. subst st'. cbn [fst snd].
    exists (sample c u (Z.to_nat num) (S (fst st)) p0 (vminus p1 p0) (vminus p2 p0)). rewrite sample_len. split; [reflexivity|]. split; [lia|]. intros u' l0 H.
    assert (F : face_num c u' (fst st) (vminus p1 p0) (vminus p2 p0) = Ok num) by (unfold face_num in *; rewrite (H (fst st)) by lia; exact E). rewrite F. cbn [bind].
    rewrite sample_ext; [reflexivity|]. intros j0 J. apply H. lia.
  Qed.
End Convert.

(** *** A case: a cloud and a mesh, every coordinate doubled and moved by one along x. *)
Definition nm (s : String.string) : name := String.list_ascii_of_string s.
Definition demo_conf : cconf := CConf 1 2 (V3 1 0 0).
Definition demo_pcd (f : name) : option (list vec3) := if list_eq_dec ascii_dec f (nm "a.pcd") then Some [V3 1 2 3] else None.
Definition demo_obj (f : name) : option mesh := if list_eq_dec ascii_dec f (nm "dir.x/b.obj") then Some (Mesh [V3 0 0 0; V3 1 0 0; V3 0 1 0] [[0; 1; 2]%nat]) else None.
Definition demo_u (_ : nat) : R := 3 / 4.
Example C73_ex_names : split (nm "a.pcd,dir.x/b.obj,readme,") "," = [nm "a.pcd"; nm "dir.x/b.obj"; nm "readme"] /\ ext (nm "dir.x/b.obj") = OBJ /\ ext (nm "readme") = nm "readme".
Proof. repeat split. Qed.
Lemma demo_area : area (V3 0 0 0) (V3 1 0 0) (V3 0 1 0) = 1 / 2.
Proof. cbv [area vminus dot v_x v_y v_z]. match goal with |- sqrt ?A / 2 = _ => replace A with 1 by ring end. rewrite sqrt_1. reflexivity. Qed.
Example C73_ex_sane : Forall (sane_file demo_obj demo_conf) (split (nm "a.pcd,dir.x/b.obj,readme,") ",").
Proof.
  rewrite (proj1 C73_ex_names). apply Forall_forall. intros f _ _ m L i j k I. unfold demo_obj in L. destruct (list_eq_dec _ _ _); [|discriminate]. injection L as <-. destruct I as [I|[]]. injection I as <- <- <-.
  exists (V3 0 0 0), (V3 1 0 0), (V3 0 1 0). repeat split. rewrite demo_area. cbn [ppmsq scale demo_conf]. rewrite Rabs_pos_eq; lra.
Qed.
(** Two points are wanted; 1/4 + 1/4 lies inside. *)
Example C73_ex_cloud : exists l, convert demo_conf demo_u demo_pcd demo_obj (nm "a.pcd,dir.x/b.obj,readme,") = Ok (Cloud l) /\ length l = 3%nat /\ hd_error l = Some (V3 3 4 6).
Proof.
  unfold convert. change (nm "a.pcd,dir.x/b.obj,readme,") with ("a"%char :: nm ".pcd,dir.x/b.obj,readme,") at 1. cbv iota. rewrite (proj1 C73_ex_names). cbn [files].
  assert (F1 : file_step demo_conf demo_u demo_pcd demo_obj (0%nat, []) (nm "a.pcd") = Ok (Some (0%nat, [V3 3 4 6]))).
  { unfold file_step. destruct (list_eq_dec ascii_dec (ext (nm "a.pcd")) PCD) as [_|N]; [|contradiction N; reflexivity]. unfold demo_pcd. destruct (list_eq_dec _ _ _) as [_|N]; [|contradiction N; reflexivity].
    cbn [fst snd app map]. cbv [vadd vscale demo_conf scale offset v_x v_y v_z]. do 4 f_equal; f_equal; ring. }
  rewrite F1. cbn [bind].
  assert (F2 : exists k l, file_step demo_conf demo_u demo_pcd demo_obj (0%nat, [V3 3 4 6]) (nm "dir.x/b.obj") = Ok (Some (k, V3 3 4 6 :: l)) /\ length l = 2%nat).
  { unfold file_step. destruct (list_eq_dec ascii_dec (ext (nm "dir.x/b.obj")) PCD) as [N|_]; [discriminate N|]. destruct (list_eq_dec ascii_dec (ext (nm "dir.x/b.obj")) OBJ) as [_|N]; [|contradiction N; reflexivity].
    unfold demo_obj. destruct (list_eq_dec _ _ _) as [_|N]; [|contradiction N; reflexivity]. cbn [verts polygons faces].
    assert (NUM : face_num demo_conf demo_u 0 (vminus (vscale (scale demo_conf) (V3 1 0 0)) (vscale (scale demo_conf) (V3 0 0 0))) (vminus (vscale (scale demo_conf) (V3 0 1 0)) (vscale (scale demo_conf) (V3 0 0 0))) = Ok 2%Z).
    { unfold face_num. rewrite face_area_gram, demo_area. cbn [ppmsq scale demo_conf]. assert (T : truncR (1 * (2 * 2 * (1 / 2))) = 2%Z) by (apply truncR_pos; lra). rewrite T. unfold demo_u.
      destruct (Rlt_dec (Rabs _) _) as [_|N]; [|exfalso; apply N; rewrite Rabs_pos_eq; lra]. destruct (Rlt_dec _ _); [lra|reflexivity]. }
    unfold face. cbn [map nth_error fst snd]. cbv zeta. rewrite NUM. cbn [bind]. do 2 eexists. split; [reflexivity|]. apply sample_length. }
  destruct F2 as (k & l & -> & L). cbn [bind]. exists (V3 3 4 6 :: l). split; [|split; [cbn [length]; rewrite L; reflexivity|reflexivity]].
  unfold file_step. destruct (list_eq_dec ascii_dec (ext (nm "readme")) PCD) as [N|_]; [discriminate N|]. destruct (list_eq_dec ascii_dec (ext (nm "readme")) OBJ) as [N|_]; [discriminate N|]. reflexivity.
Qed.
Example C73_ex_bad : Exists (bad_file demo_pcd demo_obj) (split (nm "a.pcd,c.obj") ",").
Proof. right. left. right. left. split; [left; exists (nm "c"); reflexivity|]. unfold demo_obj. destruct (list_eq_dec _ _ _) as [E|_]; [discriminate E|reflexivity]. Qed.

Print Assumptions C73_names.
Print Assumptions C73_cloud.
Print Assumptions C73_no_cloud.
Print Assumptions C73_defined.
Print Assumptions C73_rounding_is_fair.
Print Assumptions C73_density_is_even.
Print Assumptions C73_points_use_their_own_draws.
Print Assumptions C73_faces_use_their_own_draws.
