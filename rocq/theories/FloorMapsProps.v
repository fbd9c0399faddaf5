(** C48: floor maps built from a point cloud, pointcloud_to_maps.cpp cbPoints. *)
From Coq Require Import ZifyBool Permutation.
From Flocq Require Import IEEE754.BinarySingleNaN.
From Verif Require Import Common OverlayProofs FloorMaps FloorMapsProofs SafetyLimiter.
Local Open Scope Z_scope.

(** *** Specification, in terms of the cloud *)
Section Spec.
Variable P : params.
Variable pts : list pt.
(** The column [k] has a point within the floor height of [i]. *)
Definition ground_at (i : Z) (k : key) : Prop := exists p, In p pts /\ cx p = fst k /\ cy p = snd k /\ Z.abs (i - cz p) <= floor_height P.
(** The column [k] has a point above the ground and the tolerance, up to the height of the robot. *)
Definition obstacle_over (i : Z) (k : key) : Prop :=
  exists p, In p pts /\ cx p = fst k /\ cy p = snd k /\ floor_height P < Z.abs (i - cz p) /\ i + floor_height P + floor_tolerance P < cz p <= i + robot_height P.
Definition free_at (i : Z) (k : key) : Prop := ground_at i k /\ ~ obstacle_over i k.
(** Number of columns of which a property holds. *)
Definition number_of (Q : key -> Prop) (n : Z) : Prop := exists ks, NoDup ks /\ (forall k, In k ks <-> inside pts k /\ Q k) /\ Z.of_nat (length ks) = n.
(** A height with enough points has the area of its free columns; the others have none. *)
Definition area (i n : Z) : Prop := if thresh P (hist_max pts) <? hist pts i then number_of (free_at i) n else n = 0.
(** Candidate heights. *)
Definition candidate (i : Z) : Prop := In i (floors P pts).
(** [k] is free at [i] or at a height of the unbroken run of candidate heights above [i]. *)
Definition free_in_run (i : Z) (k : key) : Prop := exists j, i <= j /\ (forall x, i <= x <= j -> candidate x) /\ free_at j k.
(** The merged floor. *)
Definition merged_occupied (i : Z) (k : key) : Prop := obstacle_over i k /\ ~ free_in_run i k.
Definition merged_free (i : Z) (k : key) : Prop := ~ candidate (i - 1) /\ free_in_run i k.
(** The published floor: free space grows by up to five cells around a free cell, less than the distance to the nearest occupied cell. *)
Definition shown_free (i : Z) (k : key) : Prop :=
  ~ merged_occupied i k /\
  exists k0 r, inside pts k0 /\ merged_free i k0 /\ 0 <= r <= 5 /\ apart2 k0 k <= r * r /\
    forall k1, inside pts k1 -> merged_occupied i k1 -> (r + 1) * (r + 1) <= apart2 k0 k1.
End Spec.

(** *** Auxiliary: [drawn] in terms of the specification *)
Lemma obstacle_iff P pts i k : existsb (fun p => here k p && obstructs P i p) pts = true <-> obstacle_over P pts i k.
Proof.
  rewrite existsb_exists. unfold obstacle_over, here, obstructs, ground. split; intros [p H]; exists p.
  - destruct H as [I H]. split; [exact I|]. lia.
  - destruct H as (I & A & B & C & D). split; [exact I|]. lia.
Qed.
Lemma ground_iff P pts i k : existsb (fun p => here k p && ground P i p) pts = true <-> ground_at P pts i k.
Proof.
  rewrite existsb_exists. unfold ground_at, here, ground. split; intros [p H]; exists p.
  - destruct H as [I H]. split; [exact I|]. lia.
  - destruct H as (I & A & B & C). split; [exact I|]. lia.
Qed.
Lemma drawn_spec P pts i k : (drawn P pts i k = 100 <-> obstacle_over P pts i k) /\ (drawn P pts i k = 0 <-> free_at P pts i k) /\
  (drawn P pts i k = -1 <-> ~ obstacle_over P pts i k /\ ~ ground_at P pts i k).
Proof.
  unfold drawn, content, free_at. rewrite <- obstacle_iff, <- ground_iff.
  destruct (existsb (fun p => here k p && obstructs P i p) pts), (existsb (fun p => here k p && ground P i p) pts); intuition congruence.
Qed.

(** *** C48 *)
(** Every floor map is written inside its bounds; a cell is occupied iff an obstacle is over it, free iff there is ground and no obstacle, unknown otherwise. *)
Theorem C48_floor_map : forall P pts i, exists d, draw P pts i = Ok d /\ forall k, inside pts k ->
  (d (address pts k) = 100 <-> obstacle_over P pts i k) /\ (d (address pts k) = 0 <-> free_at P pts i k) /\
  (d (address pts k) = -1 <-> ~ obstacle_over P pts i k /\ ~ ground_at P pts i k).
Proof.
  intros P pts i. destruct (draw_run P pts i) as [d [E H]]. exists d. split; [exact E|]. intros k Ik. rewrite H by exact Ik. apply drawn_spec.
Qed.

Lemma number_of_count pts (cp : grid_data) Q : 0 < width pts -> (forall k, inside pts k -> (cp (address pts k) = 0 <-> Q k)) ->
  forall n, number_of pts Q n <-> n = count_free (size pts) cp.
Proof.
  intros W H.
  assert (U : forall ks, NoDup ks -> (forall k, In k ks <-> inside pts k /\ Q k) -> Z.of_nat (length ks) = count_free (size pts) cp).
  { intros ks N K. unfold count_free. f_equal. rewrite <- (map_length (address pts) ks). apply Permutation_length, NoDup_Permutation.
    - assert (Iall : forall k, In k ks -> inside pts k) by (intros k I; apply K; exact I). clear K. induction ks as [|k ks IH]; [constructor|]. inversion N; subst. cbn [map]. constructor.
      + intros X. apply in_map_iff in X. destruct X as [k' [E I]]. apply address_inj in E; [subst; contradiction|apply Iall; right; exact I|apply Iall; left; reflexivity].
      + apply IH; [assumption|intros k' I; apply Iall; right; exact I].
    - apply NoDup_filter, range_excl_NoDup.
    - intros a. rewrite in_map_iff, filter_In, in_range_excl. split.
      + intros [k [E I]]. subst a. apply K in I. destruct I as [Ik Qk]. split; [apply address_range; exact Ik|]. apply H in Qk; [|exact Ik]. lia.
      + intros [R Z0]. destruct (address_onto pts a W R) as [k [Ik E]]. subst a. exists k. split; [reflexivity|]. apply K. split; [exact Ik|]. apply H; [exact Ik|lia]. }
  intros n. split.
  - intros [ks (N & K & E)]. rewrite <- E. apply U; assumption.
  - intros ->. set (key_of := fun a => (lower cx pts + a mod width pts, lower cy pts + a / width pts)).
    exists (map key_of (filter (fun a => cp a =? 0) (range_excl 0 (size pts)))).
    assert (KA : forall k, inside pts k -> key_of (address pts k) = k).
    { intros k Ik. unfold key_of. destruct (address_coord pts k Ik) as [A B]. rewrite A, B. destruct k; cbn [fst snd]. f_equal; lia. }
    assert (AK : forall a, 0 <= a < size pts -> exists k, inside pts k /\ address pts k = a /\ key_of a = k).
    { intros a R. destruct (address_onto pts a W R) as [k [Ik E]]. exists k. split; [exact Ik|]. split; [exact E|]. rewrite <- E. apply KA. exact Ik. }
    assert (K : forall k, In k (map key_of (filter (fun a => cp a =? 0) (range_excl 0 (size pts)))) <-> inside pts k /\ Q k).
    { intros k. rewrite in_map_iff. split.
      - intros [a [E I]]. apply filter_In in I. destruct I as [R Z0]. apply in_range_excl in R. destruct (AK a R) as [k' (Ik & Ea & Ek)]. rewrite Ek in E. subst k'. split; [exact Ik|]. apply H; [exact Ik|]. rewrite Ea. lia.
      - intros [Ik Qk]. exists (address pts k). split; [apply KA; exact Ik|]. apply filter_In. split; [apply in_range_excl, address_range; exact Ik|]. apply H in Qk; [|exact Ik]. lia. }
    assert (N : NoDup (map key_of (filter (fun a => cp a =? 0) (range_excl 0 (size pts))))).
    { assert (R : forall a, In a (filter (fun a => cp a =? 0) (range_excl 0 (size pts))) -> 0 <= a < size pts) by (intros a I; apply filter_In in I; apply in_range_excl, I).
      assert (N0 : NoDup (filter (fun a => cp a =? 0) (range_excl 0 (size pts)))) by apply NoDup_filter, range_excl_NoDup.
      revert R N0. generalize (filter (fun a => cp a =? 0) (range_excl 0 (size pts))). induction l as [|a l IH]; intros R N0; [constructor|]. inversion N0; subst. cbn [map]. constructor.
      - intros X. apply in_map_iff in X. destruct X as [b [E I]]. destruct (AK a (R a (or_introl eq_refl))) as [k (Ik & Ea & Ek)], (AK b (R b (or_intror I))) as [k' (Ik' & Eb & Ek')]. match goal with N : ~ In a l |- _ => apply N; replace a with b by congruence; exact I end.
      - apply IH; [intros b I; apply R; right; exact I|assumption]. }
    split; [exact N|]. split; [exact K|]. apply U; assumption.
Qed.

(** The area of a height is the number of its free columns, and the candidate heights are the local maxima of the area with enough points that pass the area filter. *)
Theorem C48_area : forall P pts i n, pts <> [] -> (area P pts i n <-> n = runnable P pts i).
Proof.
  intros P pts i n N0. destruct (size_pos pts N0) as [W _]. unfold area, runnable, enough. destruct (thresh P (hist_max pts) <? hist pts i); [|tauto].
  rewrite <- (count_free_draw P pts i (D_of P pts i) W (draw_D P pts i)). apply number_of_count; [exact W|]. intros k Ik. rewrite D_of_spec by exact Ik. apply drawn_spec.
Qed.
Theorem C48_candidates : forall P pts i, pts <> [] ->
  (candidate P pts i <-> lower cz pts <= i <= upper cz pts /\ thresh P (hist_max pts) < hist pts i /\
    exists n, area P pts i n /\ above P (runnable_max P pts) n = true /\
      (i = lower cz pts \/ exists m, area P pts (i - 1) m /\ m <= n) /\ (i = upper cz pts \/ exists m, area P pts (i + 1) m /\ m <= n)).
Proof.
  intros P pts i N0. unfold candidate, floors. rewrite filter_In. unfold heights. rewrite in_range_incl. unfold is_floor, enough. split.
  - intros [R H]. rewrite !andb_true_iff, !orb_true_iff in H. destruct H as [[[H1 H2] H3] H4]. split; [exact R|]. split; [lia|]. exists (runnable P pts i). split; [apply C48_area; auto|]. split; [exact H4|]. split.
    + destruct H2 as [H2|H2]; [left; lia|right]. exists (runnable P pts (i - 1)). split; [apply C48_area; auto|lia].
    + destruct H3 as [H3|H3]; [left; lia|right]. exists (runnable P pts (i + 1)). split; [apply C48_area; auto|lia].
  - intros [R [H1 [n (A & H4 & H2 & H3)]]]. apply C48_area in A; [|exact N0]. subst n. split; [exact R|]. rewrite H4, andb_true_r. rewrite !andb_true_iff, !orb_true_iff. split; [split; [lia|]|].
    + destruct H2 as [H2|[m [A L]]]; [left; lia|right]. apply C48_area in A; [|exact N0]. lia.
    + destruct H3 as [H3|[m [A L]]]; [left; lia|right]. apply C48_area in A; [|exact N0]. lia.
Qed.
(** The largest area, of which [above] takes a share. *)
Theorem C48_largest_area : forall P pts, pts <> [] -> (forall i n, lower cz pts <= i <= upper cz pts -> area P pts i n -> n <= runnable_max P pts) /\
  (runnable_max P pts = 0 \/ exists i, lower cz pts <= i <= upper cz pts /\ area P pts i (runnable_max P pts)).
Proof.
  intros P pts N0. unfold runnable_max.
  assert (G : forall l m, (forall i, In i l -> runnable P pts i <= fold_left (fun m i => if m <? runnable P pts i then runnable P pts i else m) l m) /\ m <= fold_left (fun m i => if m <? runnable P pts i then runnable P pts i else m) l m /\
     (fold_left (fun m i => if m <? runnable P pts i then runnable P pts i else m) l m = m \/ exists i, In i l /\ fold_left (fun m i => if m <? runnable P pts i then runnable P pts i else m) l m = runnable P pts i)).
  { induction l as [|x l IH]; intros m; cbn [fold_left]; [split; [intros i []|split; [lia|left; reflexivity]]|].
    destruct (IH (if m <? runnable P pts x then runnable P pts x else m)) as (A & B & C). split; [|split].
    - intros i [<-|I]; [destruct (Z.ltb_spec m (runnable P pts x)); lia|apply A; exact I].
    - destruct (Z.ltb_spec m (runnable P pts x)); lia.
    - destruct C as [C|[i [I C]]]; [|right; exists i; split; [right; exact I|exact C]]. rewrite C. destruct (m <? runnable P pts x); [right; exists x; split; [left; reflexivity|reflexivity]|left; reflexivity]. }
  destruct (G (heights pts) 0) as (A & B & C). split.
  - intros i n R Ar. apply C48_area in Ar; [|exact N0]. subst n. apply A. apply in_range_incl. exact R.
  - destruct C as [C|[i [I C]]]; [left; exact C|right]. exists i. split; [apply in_range_incl in I; exact I|]. rewrite C. apply C48_area; auto.
Qed.

Lemma merged_spec P pts i (cp : grid_data) k : In i (floors P pts) -> inside pts k -> merged_cell (floors P pts) (D_of P pts) i (address pts k) (cp (address pts k)) ->
  (cp (address pts k) = 100 <-> merged_occupied P pts i k) /\ (cp (address pts k) = 0 <-> merged_free P pts i k) /\
  (cp (address pts k) = 100 \/ cp (address pts k) = 0 \/ cp (address pts k) = -1).
Proof.
  intros Ii Ik [M1 M2]. set (v := cp (address pts k)) in *.
  assert (FR : freed (floors P pts) (D_of P pts) i (address pts k) <-> free_in_run P pts i k).
  { unfold freed, run_of, free_in_run, candidate. split.
    - intros [j [[L R] Z0]]. exists j. split; [exact L|]. split; [exact R|]. rewrite D_of_spec in Z0 by exact Ik. apply drawn_spec in Z0. exact Z0.
    - intros [j (L & R & F)]. exists j. split; [split; assumption|]. rewrite D_of_spec by exact Ik. apply drawn_spec. exact F. }
  rewrite FR in M1, M2. rewrite D_of_spec in M2 by exact Ik. unfold merged_occupied, merged_free.
  assert (B : existsb (Z.eqb (i - 1)) (floors P pts) = true <-> candidate P pts (i - 1)).
  { rewrite existsb_exists. unfold candidate. split; [intros [x [I E]]; replace (i - 1) with x by lia; exact I|intros I; exists (i - 1); split; [exact I|lia]]. }
  destruct (drawn_spec P pts i k) as (S1 & S2 & S3).
  assert (Dec : free_in_run P pts i k \/ ~ free_in_run P pts i k).
  { assert (Dv : drawn P pts i k = 100 \/ drawn P pts i k = 0 \/ drawn P pts i k = -1) by (unfold drawn; destruct (content P pts i k) as [[| |]|]; auto).
    clear - Ii. unfold free_in_run, candidate.
    (* search the heights above i *)
    set (ok := fun j => (i <=? j) && forallb (fun x => existsb (Z.eqb x) (floors P pts)) (range_incl i j) && (drawn P pts j k =? 0)).
    destruct (existsb ok (floors P pts)) eqn:E.
    - left. apply existsb_exists in E. destruct E as [j [Ij O]]. unfold ok in O. rewrite !andb_true_iff in O. destruct O as [[O1 O2] O3]. exists j. split; [lia|]. split.
      + intros x Hx. rewrite forallb_forall in O2. specialize (O2 x). rewrite in_range_incl in O2. specialize (O2 Hx). apply existsb_exists in O2. destruct O2 as [y [Iy Ey]]. replace x with y by lia. exact Iy.
      + apply drawn_spec. lia.
    - right. intros [j (L & R & F)]. apply Bool.not_true_iff_false in E. apply E. apply existsb_exists. exists j. split; [apply R; lia|]. unfold ok. rewrite !andb_true_iff. split; [split; [lia|]|].
      + apply forallb_forall. intros x Hx. apply in_range_incl in Hx. apply existsb_exists. exists x. split; [apply R; exact Hx|lia].
      + apply drawn_spec in F. lia. }
  destruct Dec as [F|F].
  - rewrite (M1 F). destruct (existsb (Z.eqb (i - 1)) (floors P pts)).
    + assert (candidate P pts (i - 1)) by (apply B; reflexivity). split; [|split]; [split; [lia|intros [_ X]; contradiction]|split; [lia|intros [X _]; contradiction]|auto].
    + split; [|split]; [split; [lia|intros [_ X]; contradiction]|split; [intros _; split; [intros X; apply B in X; discriminate|exact F]|reflexivity]|auto].
  - rewrite (M2 F). split; [|split].
    + rewrite S1. tauto.
    + rewrite S2. split; [|tauto]. intros X. exfalso. apply F. exists i. split; [lia|]. split; [|exact X]. intros x Hx. replace x with i by lia. exact Ii.
    + unfold drawn. destruct (content P pts i k) as [[| |]|]; auto.
Qed.

Lemma apart_pos k k1 : k <> k1 -> (0 + 1) * (0 + 1) <= apart2 k k1.
Proof.
  destruct k as [x y], k1 as [x1 y1]. unfold apart2. cbn [fst snd]. intros H. assert (x <> x1 \/ y <> y1) by (destruct (Z.eq_dec x x1), (Z.eq_dec y y1); subst; tauto).
  assert (G : forall u, u <> 0 -> 1 <= u * u) by (intros u Hu; destruct (Z.lt_total u 0) as [L|[L|L]]; nia). assert (G0 : forall u, 0 <= u * u) by (intros u; apply Z.square_nonneg).
  pose proof (G0 (x - x1)). pose proof (G0 (y - y1)). destruct H0 as [H0|H0]; [specialize (G (x - x1) ltac:(lia))|specialize (G (y - y1) ltac:(lia))]; lia.
Qed.

(** Every cloud whose map has less than 2^31 cells is processed without access outside a map.
    The published floors are candidates in ascending order, and every cell is exactly as the specification says. *)
Theorem C48_published : forall P pts, size pts < 2 ^ 31 -> exists r, cbPoints P pts = Ok r /\ asc (lower cz pts - 1) (map fst r) /\
  forall i d, In (i, d) r -> candidate P pts i /\ forall k, inside pts k ->
    (d (address pts k) = 100 <-> merged_occupied P pts i k) /\
    (d (address pts k) = 0 <-> shown_free P pts i k) /\
    (d (address pts k) = 100 \/ d (address pts k) = 0 \/ d (address pts k) = -1).
Proof.
  intros P pts S. unfold cbPoints. destruct (candidates_run P pts) as [maps [E _]]. rewrite E. cbn [bind].
  destruct (merged_run P pts maps E) as [l [A (El & Ml & Fl & _)]]. rewrite El.
  destruct pts as [|p0 pts0] eqn:Ep.
  { assert (L0 : l = []) by (destruct l; [reflexivity|cbn in Ml; discriminate]). subst l. exists []. split; [reflexivity|]. split; [exact I|]. intros i d []. }
  rewrite <- Ep in *. assert (N0 : pts <> []) by (rewrite Ep; discriminate). destruct (size_pos pts N0) as [W H].
  destruct (publish_run P pts A W H S l []) as [r (Er & Mr & Fr)]. exists r. split; [exact Er|]. split.
  - rewrite Mr. pose proof (floors_asc P pts) as As. rewrite <- Ml in As. revert As. generalize (lower cz pts - 1). clear. induction l as [|m l IH]; intros lo As; [exact I|]. cbn [map asc filter] in *. destruct As as [A1 A2]. destruct (negb _); [cbn [map asc]; split; [exact A1|apply IH; exact A2]|]. apply asc_weaken with (fst m); [lia|apply IH; exact A2].
  - intros i d I. rewrite Forall_forall in Fr, Fl. destruct (Fr (i, d) I) as [cp [Icp Ew]]. cbn [fst snd] in Icp, Ew.
    assert (Ii : In i (floors P pts)) by (rewrite <- Ml; apply in_map_iff; exists (i, cp); auto).
    split; [exact Ii|]. intros k Ik. pose proof (fun k Ik => merged_spec P pts i cp k Ii Ik (Fl (i, cp) Icp (address pts k))) as MS.
    destruct (widen_run (width pts) (height pts) W H S cp) as [d' [Ew' Hd]]. rewrite Ew in Ew'. injection Ew' as <-.
    destruct (Hd (address pts k) (address_range pts k Ik)) as [D1 D2]. destruct (MS k Ik) as (S1 & S2 & S3).
    assert (SF : (cp (address pts k) <> 100 /\ exists a, 0 <= a < size pts /\ reached (width pts) (height pts) cp a (address pts k)) <-> shown_free P pts i k).
    { unfold shown_free, reached, clear_of. rewrite <- S1. split.
      - intros [C [a (Ra & Za & r0 & R1 & R2 & R3)]]. split; [exact C|]. destruct (address_onto pts a W Ra) as [k0 [Ik0 Ea]]. subst a. exists k0, r0. split; [exact Ik0|]. split; [apply (MS k0 Ik0); exact Za|]. split; [exact R1|].
        rewrite dist2_apart in R2 by assumption. split; [exact R2|]. intros k1 Ik1 O1. rewrite <- (dist2_apart pts k0 k1) by assumption. apply R3; [apply address_range; exact Ik1|apply (MS k1 Ik1); exact O1].
      - intros [C [k0 [r0 (Ik0 & F0 & R1 & R2 & R3)]]]. split; [exact C|]. exists (address pts k0). split; [apply address_range; exact Ik0|]. split; [apply (MS k0 Ik0); exact F0|]. exists r0. split; [exact R1|]. split; [rewrite dist2_apart by assumption; exact R2|].
        intros b Rb Ob. destruct (address_onto pts b W Rb) as [k1 [Ik1 Eb]]. subst b. rewrite dist2_apart by assumption. apply R3; [exact Ik1|apply (MS k1 Ik1); exact Ob]. }
    fold (size pts) in D1, D2. rewrite SF in D1, D2.
    assert (Dec : shown_free P pts i k \/ ~ shown_free P pts i k).
    { rewrite <- SF. destruct (Z.eq_dec (cp (address pts k)) 100) as [C|C]; [right; tauto|]. destruct (widen_dec (width pts) (height pts) W H S cp (address pts k)) as [X|X]; [left; auto|right; tauto]. }
    destruct Dec as [X|X].
    + rewrite (D1 X). split; [split; [lia|intros O; destruct X as [X _]; contradiction]|]. split; [tauto|auto].
    + rewrite (D2 X). split; [exact S1|]. split; [|exact S3]. split; [|tauto]. intros Z0. exfalso. apply X. apply SF. split; [lia|]. exists (address pts k). split; [apply address_range; exact Ik|]. split; [exact Z0|].
      exists 0. split; [lia|]. split; [unfold dist2; rewrite !Z.sub_diag; lia|]. intros b Rb Cb. destruct (address_onto pts b W Rb) as [k1 [Ik1 Eb]]. subst b. rewrite dist2_apart by assumption.
      apply apart_pos. intros ->. congruence.
Qed.

(** Which candidates are published: those whose merged free area is not too small, as long as the height is recovered exactly from its metric value. *)
Theorem C48_which_floors : forall P pts, size pts < 2 ^ 31 -> (forall h, lower cz pts <= h <= upper cz pts -> height_of P h = h) ->
  exists r, cbPoints P pts = Ok r /\
    forall i, In i (map fst r) <-> candidate P pts i /\ exists n, number_of pts (merged_free P pts i) n /\ too_small P n = false.
Proof.
  intros P pts S Hh. unfold cbPoints. destruct (candidates_run P pts) as [maps [E _]]. rewrite E. cbn [bind].
  destruct (merged_run P pts maps E) as [l [A (El & Ml & Fl & Al)]]. rewrite El.
  destruct pts as [|p0 pts0] eqn:Ep.
  { assert (L0 : l = []) by (destruct l; [reflexivity|cbn in Ml; discriminate]). subst l. exists []. split; [reflexivity|]. intros i. split; [intros []|]. intros [[] _]. }
  rewrite <- Ep in *. assert (N0 : pts <> []) by (rewrite Ep; discriminate). destruct (size_pos pts N0) as [W H].
  destruct (publish_run P pts A W H S l []) as [r (Er & Mr & Fr)]. exists r. split; [exact Er|]. specialize (Al Hh W). rewrite Forall_forall in Al, Fl.
  assert (K : forall m, In m l -> In (fst m) (floors P pts) /\ forall n, number_of pts (merged_free P pts (fst m)) n <-> n = A (height_of P (fst m))).
  { intros [i cp] Im. cbn [fst]. assert (Ii : In i (floors P pts)) by (rewrite <- Ml; apply in_map_iff; exists (i, cp); auto). split; [exact Ii|]. intros n.
    assert (R : lower cz pts <= i <= upper cz pts) by (apply filter_In in Ii; apply in_range_incl, Ii). rewrite Hh by exact R. pose proof (Al (i, cp) Im) as Ea. cbn [fst snd] in Ea. rewrite Ea.
    apply number_of_count; [exact W|]. intros k Ik. apply (merged_spec P pts i cp k Ii Ik (Fl (i, cp) Im (address pts k))). }
  intros i. rewrite Mr, in_map_iff. split.
  - intros [m [Em Im]]. apply filter_In in Im. destruct Im as [Im T]. destruct (K m Im) as [K1 K2]. subst i. split; [exact K1|]. exists (A (height_of P (fst m))). split; [apply K2; reflexivity|]. destruct (too_small _ _); [discriminate|reflexivity].
  - intros [C [n [N T]]]. unfold candidate in C. rewrite <- Ml in C. apply in_map_iff in C. destruct C as [m [Em Im]]. exists m. split; [exact Em|]. apply filter_In. split; [exact Im|]. destruct (K m Im) as [_ K2]. rewrite Em in K2. apply K2 in N. rewrite Em, <- N, T. reflexivity.
Qed.

(** Consequences.  An occupied cell has an obstacle over it; a merged free cell is free at its floor or at a candidate height above it;
    a run of candidate heights is published at most once, at its lowest height, when floors without free cells are too small. *)
Theorem C48_occupied_has_obstacle : forall P pts r i d k, size pts < 2 ^ 31 -> cbPoints P pts = Ok r -> In (i, d) r -> inside pts k -> d (address pts k) = 100 -> obstacle_over P pts i k.
Proof.
  intros P pts r i d k S E I Ik C. destruct (C48_published P pts S) as [r' (E' & _ & H)]. rewrite E in E'. injection E' as <-. destruct (H i d I) as [_ H']. destruct (H' k Ik) as [H1 _]. apply H1 in C. apply C.
Qed.
Theorem C48_free_is_near_ground : forall P pts r i d k, size pts < 2 ^ 31 -> cbPoints P pts = Ok r -> In (i, d) r -> inside pts k -> d (address pts k) = 0 ->
  exists k0 j, i <= j /\ candidate P pts j /\ free_at P pts j k0 /\ apart2 k0 k <= 25.
Proof.
  intros P pts r i d k S E I Ik C. destruct (C48_published P pts S) as [r' (E' & _ & H)]. rewrite E in E'. injection E' as <-. destruct (H i d I) as [_ H']. destruct (H' k Ik) as [_ [H1 _]]. apply H1 in C.
  destruct C as [_ [k0 [q (_ & [_ [j (L & R & F)]] & Q & A & _)]]]. exists k0, j. split; [exact L|]. split; [apply R; lia|]. split; [exact F|]. nia.
Qed.
Theorem C48_runs_published_once : forall P pts r i, size pts < 2 ^ 31 -> (forall h, lower cz pts <= h <= upper cz pts -> height_of P h = h) -> too_small P 0 = true ->
  cbPoints P pts = Ok r -> In i (map fst r) -> ~ candidate P pts (i - 1).
Proof.
  intros P pts r i S Hh T0 E I. destruct (C48_which_floors P pts S Hh) as [r' [E' H]]. rewrite E in E'. injection E' as <-. apply H in I. destruct I as [_ [n [[ks (N & K & L)] T]]]. intros C.
  destruct ks as [|k ks]; [cbn in L; subst n; congruence|]. destruct (proj1 (K k) (or_introl eq_refl)) as [_ [X _]]. contradiction.
Qed.

(** *** Findings *)
(** Default parameters with the 0.05 m grid; heights are recovered as in the code with the double arithmetic. *)
Definition grid05 : f64 := f64_of 3602879701896397 (-56).
Definition h05 (i : Z) : Z := Btrunc (fdiv (fmul (f64_of i 0) grid05) grid05).
Definition defaults (min_area : Z) : params := Params 20 2 4 (fun m => m / 2) (fun m n => 4 * m <? 5 * n) (fun n => n <? min_area) h05.

(** The height of a floor is recovered one cell too low at 2.15 m, as of the default grid. *)
Theorem C48_height_recovered_refuted : ~ (forall i, h05 i = i).
Proof. intros H. specialize (H 43). vm_compute in H. discriminate. Qed.
(** So a floor with enough free cells is dropped. *)
Theorem C48_floor_dropped_refuted : ~ (forall P pts, size pts < 2 ^ 31 -> exists r, cbPoints P pts = Ok r /\
    forall i, In i (map fst r) <-> candidate P pts i /\ exists n, number_of pts (merged_free P pts i) n /\ too_small P n = false).
Proof.
  intros H. set (pts := [Pt 0 0 43; Pt 1 0 43]). destruct (H (defaults 1) pts ltac:(vm_compute; reflexivity)) as [r [E I]].
  assert (E0 : cbPoints (defaults 1) pts = Ok []) by (vm_compute; reflexivity). rewrite E0 in E. injection E as <-. specialize (I 43). cbn [map In] in I. apply I.
  assert (C : candidate (defaults 1) pts 43) by (unfold candidate; assert (F : floors (defaults 1) pts = [43]) by (vm_compute; reflexivity); rewrite F; left; reflexivity).
  split; [exact C|].
  set (P' := Params 20 2 4 (fun m => m / 2) (fun m n => 4 * m <? 5 * n) (fun n => n <? 1) (fun i => i)).
  destruct (C48_which_floors P' pts ltac:(vm_compute; reflexivity) ltac:(reflexivity)) as [r' [E' I']].
  assert (E1 : match cbPoints P' pts with Ok r => map fst r | UB => [] end = [43]) by (vm_compute; reflexivity). rewrite E' in E1. specialize (I' 43). rewrite E1 in I'. destruct (proj1 I' (or_introl eq_refl)) as [_ X]. exact X.
Qed.
(** Merging can publish an occupied cell as free: the cloud has an obstacle over (0, 0) for the floor at 0, within the tolerance of the floor one cell above. *)
Theorem C48_obstacle_kept_refuted : ~ (forall P pts r i d k, size pts < 2 ^ 31 -> cbPoints P pts = Ok r -> In (i, d) r -> inside pts k -> obstacle_over P pts i k -> d (address pts k) = 100).
Proof.
  intros H. set (pts := [Pt 0 0 0; Pt 1 0 1; Pt 0 0 7; Pt 2 0 (-2)]).
  assert (S : size pts < 2 ^ 31) by (vm_compute; reflexivity).
  assert (E : match cbPoints (defaults 1) pts with Ok [(i, d)] => (i =? 0) && (d 0 =? 0) | _ => false end = true) by (vm_compute; reflexivity).
  destruct (cbPoints (defaults 1) pts) as [[|[i d] [|? ?]]|] eqn:R; [discriminate E| |discriminate E|discriminate E]. apply andb_true_iff in E. destruct E as [E1 E2].
  assert (i = 0) by lia. subst i.
  specialize (H (defaults 1) pts [(0, d)] 0 d (0, 0) S R (or_introl eq_refl)). assert (Ad : address pts (0, 0) = 0) by (vm_compute; reflexivity). rewrite Ad in H.
  assert (X : d 0 = 100); [|lia]. apply H.
  - unfold inside. vm_compute. intuition discriminate.
  - exists (Pt 0 0 7). split; [right; right; left; reflexivity|]. cbn. lia.
Qed.

(** *** Non-vacuity *)
(** Heights up to 2.1 m are recovered exactly on the default grid. *)
Example C48_heights_exact : forall h, -42 <= h <= 42 -> h05 h = h.
Proof.
  assert (F : forallb (fun h => h05 h =? h) (range_incl (-42) 42) = true) by (vm_compute; reflexivity).
  rewrite forallb_forall in F. intros h Hh. apply Z.eqb_eq, F, in_range_incl, Hh.
Qed.
(** Two floors with an obstacle on the lower one, an isolated unknown column and widened free space. *)
Definition demo : list pt := [Pt 0 0 0; Pt 1 0 0; Pt 7 0 0; Pt 7 0 9; Pt 0 1 0; Pt 0 1 40; Pt 1 1 40; Pt 2 1 40].
Example C48_demo : size demo < 2 ^ 31 /\ (forall h, lower cz demo <= h <= upper cz demo -> height_of (defaults 2) h = h) /\
  match cbPoints (defaults 2) demo with
  | Ok r => map (fun m => (fst m, map (snd m) (range_excl 0 (size demo)))) r =
      [(0, [0; 0; 0; 0; 0; 0; 0; 100; 0; 0; 0; 0; 0; 0; -1; -1]); (40, [0; 0; 0; 0; 0; 0; 0; -1; 0; 0; 0; 0; 0; 0; 0; 0])]
  | UB => False end.
Proof. split; [vm_compute; reflexivity|]. split; [assert (L : lower cz demo = 0) by (vm_compute; reflexivity); assert (U : upper cz demo = 40) by (vm_compute; reflexivity); intros h Hh; rewrite L, U in Hh; apply C48_heights_exact; lia|]. vm_compute. reflexivity. Qed.

Print Assumptions C48_floor_map.
Print Assumptions C48_candidates.
Print Assumptions C48_published.
Print Assumptions C48_which_floors.
Print Assumptions C48_runs_published_once.
Print Assumptions C48_floor_dropped_refuted.
Print Assumptions C48_obstacle_kept_refuted.
