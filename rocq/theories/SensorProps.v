(** Properties C30 and C31: local maps made from sensor points and from a large map. *)
From Coq Require Import QArith Qround Qabs Lqa.
From Verif Require Import Common CSpace CSpaceProps MotionCache Motion3DProofs Sensor.
Local Open Scope Z_scope.

(** ** Specification *)
(** Column (row) [i] of the window covers [lo + i*res, lo + (i+1)*res). *)
Definition in_column (res lo : Q) (i : Z) (p : Q) : Prop := (lo + inject_Z i * res <= p < lo + inject_Z (i + 1) * res)%Q.
(** Less than one cell outside the lower edge of the window. *)
Definition just_below (res lo p : Q) : Prop := (lo - res < p < lo)%Q.
(** The column a point is counted in: the one that contains it, but column 0 also takes the points just below. *)
Definition counted_in (res lo : Q) (i : Z) (p : Q) : Prop := in_column res lo i p \/ (i = 0 /\ just_below res lo p).
Definition in_height (w : window) (p : point) : Prop := (w_zmin w <= p_z p - w_rz w <= w_zmax w)%Q.
(** The quotients fit in an int. *)
Definition fits_int (res lo p : Q) : Prop := (- inject_Z (2 ^ 31) < (p - lo) / res < inject_Z (2 ^ 31))%Q.
Definition representable (w : window) (p : point) : Prop :=
  fits_int (w_res w) (w_ox w) (p_x p) /\ fits_int (w_res w) (w_oy w) (p_y p).
Definition good_window (w : window) : Prop := (0 < w_res w)%Q /\ 0 < w_n w < 2 ^ 16.
(** Value of the large map at cell (X, Y), -1 outside. *)
Definition large_value (g : large) (X Y : Z) : Z :=
  if (0 <=? X) && (X <? g_w g) && (0 <=? Y) && (Y <? g_h g) then nth (Z.to_nat (Y * g_w g + X)) (g_data g) 0 else -1.
Definition good_large (g : large) : Prop := 0 <= g_w g /\ 0 <= g_h g /\ Z.of_nat (length (g_data g)) = g_w g * g_h g.

(** ** Truncation *)
Lemma trunc_index (q : Q) i : 0 <= i ->
  (trunc q = i <-> ((inject_Z i <= q /\ q < inject_Z (i + 1)) \/ ((i = 0)%Z /\ -(1) < q /\ q < 0))%Q).
Proof.
  intros Hi. destruct q as [a d]. unfold trunc, Qle, Qlt, Qopp, inject_Z. cbn [Qnum Qden].
  rewrite !Z.mul_1_r. replace (-(1) * Z.pos d) with (- Z.pos d) by lia. replace (0 * Z.pos d) with 0 by lia.
  destruct (Z.le_gt_cases 0 a) as [Ha|Ha].
  - rewrite Z.quot_div_nonneg by lia. pose proof (Z.div_mod a (Z.pos d) ltac:(lia)) as D. pose proof (Z.mod_pos_bound a (Z.pos d) ltac:(lia)) as M.
    split; [intros <-; left; nia|intros [[A B]|[_ [A B]]]; [|lia]]. symmetry. apply (Z.div_unique_pos a (Z.pos d) i (a - i * Z.pos d)); nia.
  - replace a with (- (- a)) by lia. rewrite Z.quot_opp_l by lia. rewrite Z.quot_div_nonneg by lia.
    pose proof (Z.div_mod (- a) (Z.pos d) ltac:(lia)) as D. pose proof (Z.mod_pos_bound (- a) (Z.pos d) ltac:(lia)) as M.
    assert (0 <= - a / Z.pos d) by (apply Z.div_pos; lia).
    split.
    + intros E. assert (i = 0 /\ - a / Z.pos d = 0) as [-> E0] by lia. right. rewrite E0 in D. lia.
    + intros [[A B]|[-> [A B]]]; [nia|]. rewrite Z.div_small by lia. reflexivity.
Qed.

Lemma trunc_bounds q k : (- inject_Z k < q)%Q -> (q < inject_Z k)%Q -> - k < trunc q < k.
Proof.
  intros A B. unfold trunc, Qlt, inject_Z in *. destruct q as [a d]. cbn [Qnum Qden Qopp] in *. rewrite Z.mul_1_r in *.
  destruct (Z.le_gt_cases 0 a).
  - rewrite Z.quot_div_nonneg by lia. assert (0 <= a / Z.pos d) by (apply Z.div_pos; lia).
    assert (a / Z.pos d < k) by (apply Z.div_lt_upper_bound; lia). lia.
  - replace a with (- (- a)) by lia. rewrite Z.quot_opp_l by lia. rewrite Z.quot_div_nonneg by lia.
    assert (0 <= - a / Z.pos d) by (apply Z.div_pos; lia). assert (- a / Z.pos d < k) by (apply Z.div_lt_upper_bound; lia). lia.
Qed.

Lemma to_int_ok q : (- inject_Z (2 ^ 31) < q)%Q -> (q < inject_Z (2 ^ 31))%Q -> to_int q = Ok (trunc q).
Proof. intros A B. pose proof (trunc_bounds q (2 ^ 31) A B). unfold to_int. replace (_ && _) with true; [reflexivity|]. symmetry. lia. Qed.

Lemma to_unsigned_small v n : - 2 ^ 31 < v < 2 ^ 31 -> n < 2 ^ 16 -> (n <=? to_unsigned v = false <-> 0 <= v < n) /\ (0 <= v < n -> to_unsigned v = v).
Proof.
  intros B N. unfold to_unsigned. destruct (Z.le_gt_cases 0 v).
  - rewrite Z.mod_small by lia. lia.
  - replace (v mod 2 ^ 32) with (v + 2 ^ 32) by (apply (Z.mod_unique_pos v (2 ^ 32) (-1)); lia). lia.
Qed.

Lemma counted_iff res lo i p : (0 < res)%Q -> 0 <= i -> (counted_in res lo i p <-> trunc ((p - lo) / res)%Q = i).
Proof.
  intros R Hi. rewrite trunc_index by assumption. unfold counted_in, in_column, just_below.
  assert (L : forall q, (q <= (p - lo) / res <-> lo + q * res <= p)%Q).
  { intros q. split; intros H.
    - apply (Qmult_le_r _ _ res R) in H. assert (E : ((p - lo) / res * res == p - lo)%Q) by (field; lra). rewrite E in H. lra.
    - apply (Qmult_le_r _ _ res R). assert (E : ((p - lo) / res * res == p - lo)%Q) by (field; lra). rewrite E. lra. }
  assert (U : forall q, ((p - lo) / res < q <-> p < lo + q * res)%Q).
  { intros q. split; intros H; apply Qnot_le_lt; intro C; apply L in C; lra. }
  assert (V : (-(1) < (p - lo) / res <-> lo - res < p)%Q).
  { split; intros H.
    - apply (Qmult_lt_r _ _ res R) in H. assert (E : ((p - lo) / res * res == p - lo)%Q) by (field; lra). rewrite E in H. lra.
    - apply (Qmult_lt_r _ _ res R). assert (E : ((p - lo) / res * res == p - lo)%Q) by (field; lra). rewrite E. lra. }
  rewrite L, U, V, (U 0%Q). intuition lra.
Qed.

Section Marks.
  Variable w : window.
  Hypothesis W : good_window w.
  Let n := w_n w.
  (** Point [p] belongs to cell (i, j). *)
  Definition hits (p : point) (i j : Z) : Prop :=
    in_height w p /\ counted_in (w_res w) (w_ox w) i (p_x p) /\ counted_in (w_res w) (w_oy w) j (p_y p).
  Definition cell (d : list Z) (i j : Z) : Z := nth (Z.to_nat (i + j * n)) d 0.

  Lemma mark_spec d p : Z.of_nat (length d) = n * n -> (in_height w p -> representable w p) ->
    exists d', mark w d p = Ok d' /\ length d' = length d /\
      forall i j, 0 <= i < n -> 0 <= j < n ->
        (hits p i j -> cell d' i j = 100) /\ (~ hits p i j -> cell d' i j = cell d i j).
  Proof.
    destruct W as [R N]. intros L F. unfold mark.
    destruct (negb (Qle_bool (w_zmin w) (p_z p - w_rz w)) || negb (Qle_bool (p_z p - w_rz w) (w_zmax w))) eqn:Z0.
    - exists d. split; [reflexivity|]. split; [reflexivity|]. intros i j _ _. split; [|reflexivity].
      intros [[A B] _]. apply Qle_bool_iff in A, B. rewrite A, B in Z0. discriminate.
    - apply orb_false_iff in Z0 as [A B]. apply negb_false_iff in A, B. apply Qle_bool_iff in A, B.
      assert (IH : in_height w p) by (split; assumption). destruct (F IH) as [[X1 X2] [Y1 Y2]].
      rewrite !to_int_ok by assumption. cbn [bind].
      set (x := trunc _). set (y := trunc ((p_y p - w_oy w) / w_res w)%Q).
      pose proof (trunc_bounds _ _ X1 X2) as BX. pose proof (trunc_bounds _ _ Y1 Y2) as BY. fold x in BX. fold y in BY.
      assert (HH : forall i j, 0 <= i -> 0 <= j -> (hits p i j <-> x = i /\ y = j)).
      { intros i j Hi Hj. unfold hits. rewrite !counted_iff by assumption. unfold x, y. tauto. }
      destruct (to_unsigned_small x n BX ltac:(unfold n; lia)) as [UX EX]. destruct (to_unsigned_small y n BY ltac:(unfold n; lia)) as [UY EY].
      fold n. destruct ((n <=? to_unsigned x) || (n <=? to_unsigned y)) eqn:O.
      + exists d. split; [reflexivity|]. split; [reflexivity|]. intros i j Hi Hj. split; [|reflexivity]. rewrite HH by lia. intros [<- <-]. lia.
      + apply orb_false_iff in O as [O1 O2]. apply UX in O1. apply UY in O2. rewrite EX, EY by assumption.
        assert (B2 : 0 <= x + y * n < n * n) by nia. assert (E2 : n * n < 2 ^ 32) by (unfold n in *; nia).
        assert (EA : to_unsigned (x + y * n) = x + y * n) by (apply Z.mod_small; lia). cbv zeta. rewrite EA.
        replace (x + y * n <? Z.of_nat (length d)) with true by lia.
        eexists. split; [reflexivity|]. split; [apply replace_nth_length|]. intros i j Hi Hj. unfold cell.
        rewrite nth_replace by lia. rewrite HH by lia. destruct (Nat.eqb_spec (Z.to_nat (i + j * n)) (Z.to_nat (x + y * n))) as [E|E].
        * assert (0 <= i + j * n) by nia. assert (j = y) by nia. subst j. assert (i = x) by lia. subst i. tauto.
        * split; [|reflexivity]. intros [<- <-]. congruence.
  Qed.

  Definition shows (pts : list point) (d : list Z) : Prop :=
    Z.of_nat (length d) = n * n /\
    forall i j, 0 <= i < n -> 0 <= j < n ->
      cell d i j = 100 /\ (exists p, In p pts /\ hits p i j) \/ cell d i j = 0 /\ (forall p, In p pts -> ~ hits p i j).

  Lemma hits_dec p i j : {hits p i j} + {~ hits p i j}.
  Proof.
    assert (D : forall a b, {(a <= b)%Q} + {~ (a <= b)%Q}) by (intros a b; destruct (Qlt_le_dec b a); [right; lra|left; assumption]).
    assert (DL : forall a b, {(a < b)%Q} + {~ (a < b)%Q}) by (intros a b; destruct (Qlt_le_dec a b); [left; assumption|right; lra]).
    unfold hits, in_height, counted_in, in_column, just_below.
    repeat match goal with
    | |- {?A /\ ?B} + {_} => let a := fresh in let b := fresh in assert (a : {A} + {~ A}); [|assert (b : {B} + {~ B}); [|destruct a, b; [left; tauto|right; tauto..]]]
    | |- {?A \/ ?B} + {_} => let a := fresh in let b := fresh in assert (a : {A} + {~ A}); [|assert (b : {B} + {~ B}); [|destruct a, b; [left; tauto|left; tauto|left; tauto|right; tauto]]]
    end; first [apply D|apply DL|apply Z.eq_dec].
  Qed.

  Lemma marks_spec pts : forall pts0 d, shows pts0 d -> (forall p, In p pts -> in_height w p -> representable w p) ->
    exists d', foldM (mark w) pts d = Ok d' /\ shows (pts0 ++ pts) d'.
  Proof.
    induction pts as [|p pts IH]; intros pts0 d S F; cbn [foldM].
    - rewrite app_nil_r. eauto.
    - destruct S as [L S]. destruct (mark_spec d p L (F p (or_introl eq_refl))) as (d1 & E & L1 & H). rewrite E. cbn [bind].
      destruct (IH (pts0 ++ [p]) d1) as (d' & E' & S'); [|intros; apply F; [right; assumption|assumption]|].
      + split; [lia|]. intros i j Hi Hj. destruct (H i j Hi Hj) as [H1 H2]. destruct (hits_dec p i j) as [h|h].
        * left. split; [auto|]. exists p. split; [apply in_or_app; right; left; reflexivity|assumption].
        * rewrite (H2 h). destruct (S i j Hi Hj) as [[A (q & Q1 & Q2)]|[A Q1]]; [left|right]; (split; [assumption|]).
          -- exists q. split; [apply in_or_app; left; assumption|assumption].
          -- intros q Hq. apply in_app_or in Hq as [Hq|[<-|[]]]; auto.
      + exists d'. split; [assumption|]. rewrite <- app_assoc in S'. exact S'.
  Qed.

  Lemma draw_spec clouds : (forall p, In p (concat clouds) -> in_height w p -> representable w p) ->
    exists d, draw_clouds w clouds = Ok d /\ shows (concat clouds) d.
  Proof.
    intros F. unfold draw_clouds.
    assert (G : forall pts0 d, shows pts0 d -> exists d', foldM (fun d c => foldM (mark w) c d) clouds d = Ok d' /\ shows (pts0 ++ concat clouds) d').
    { induction clouds as [|c cs IH]; intros pts0 d S; cbn [foldM concat].
      - rewrite app_nil_r. eauto.
      - destruct (marks_spec c pts0 d S) as (d1 & E1 & S1); [intros; apply F; [cbn; apply in_or_app; left|]; assumption|].
        rewrite E1. cbn [bind]. destruct (IH (fun p Hp => F p (in_or_app _ _ _ (or_intror Hp))) _ _ S1) as (d' & E' & S').
        exists d'. split; [assumption|]. rewrite <- app_assoc in S'. exact S'. }
    destruct W as [_ N]. destruct (G [] (repeat 0 (Z.to_nat (w_n w * w_n w)))) as (d & E & S).
    - split; [rewrite repeat_length; unfold n; nia|]. intros. right. split; [|intros ? []]. unfold cell.
      destruct (Nat.lt_ge_cases (Z.to_nat (i + j * n)) (Z.to_nat (w_n w * w_n w))).
      + apply nth_repeat.
      + apply nth_overflow. rewrite repeat_length. assumption.
    - exists d. split; assumption.
  Qed.

  (** C30: after the accumulated clouds are drawn, a cell is occupied (100) exactly if some point within the height
      limits is counted in it, and free (0) otherwise. *)
  Theorem C30_cells_show_their_points clouds :
    (forall p, In p (concat clouds) -> in_height w p -> representable w p) ->
    exists d, draw_clouds w clouds = Ok d /\ Z.of_nat (length d) = w_n w * w_n w /\
      forall i j, 0 <= i < w_n w -> 0 <= j < w_n w ->
        let v := nth (Z.to_nat (j * w_n w + i)) d (-1) in
        (v = 100 \/ v = 0) /\
        (v = 100 <-> exists p, In p (concat clouds) /\ in_height w p /\
           counted_in (w_res w) (w_ox w) i (p_x p) /\ counted_in (w_res w) (w_oy w) j (p_y p)).
  Proof.
    intros F. destruct (draw_spec clouds F) as (d & E & L & S). exists d. split; [assumption|]. split; [exact L|]. intros i j Hi Hj v.
    assert (V : v = cell d i j).
    { unfold v, cell. rewrite Z.add_comm. apply nth_indep. fold n in Hi, Hj. fold n. nia. }
    rewrite V. destruct (S i j Hi Hj) as [[A B]|[A B]].
    - split; [left; assumption|]. split; [intros _|intros _; assumption]. exact B.
    - split; [right; assumption|]. split; [rewrite A; discriminate|]. intros (p & P1 & P2). exfalso. exact (B p P1 P2).
  Qed.

  (** Exact when no point lies in the strip just below or left of the window. *)
  Theorem C30_cells_contain_their_points clouds :
    (forall p, In p (concat clouds) -> in_height w p ->
       representable w p /\ ~ just_below (w_res w) (w_ox w) (p_x p) /\ ~ just_below (w_res w) (w_oy w) (p_y p)) ->
    exists d, draw_clouds w clouds = Ok d /\
      forall i j, 0 <= i < w_n w -> 0 <= j < w_n w ->
        (nth (Z.to_nat (j * w_n w + i)) d (-1) = 100 <-> exists p, In p (concat clouds) /\ in_height w p /\
           in_column (w_res w) (w_ox w) i (p_x p) /\ in_column (w_res w) (w_oy w) j (p_y p)).
  Proof.
    intros F. destruct (C30_cells_show_their_points clouds) as (d & E & _ & H); [intros p P1 P2; exact (proj1 (F p P1 P2))|].
    exists d. split; [assumption|]. intros i j Hi Hj. destruct (H i j Hi Hj) as [_ H']. rewrite H'. clear H H'.
    split; intros (p & P1 & P2 & P3 & P4); exists p; (split; [assumption|]); (split; [assumption|]).
    - destruct (F p P1 P2) as (_ & S1 & S2). unfold counted_in in *. tauto.
    - unfold counted_in. tauto.
  Qed.

  (** Scans: the same map if every scan is level, i.e. its points have one height. *)
  Theorem C30_level_scans_are_drawn_like_clouds scans :
    (forall s, In s scans -> forall p q, In p s -> In q s -> p_z p = p_z q) ->
    draw_scans w scans = draw_clouds w scans.
  Proof.
    intros H. unfold draw_scans. f_equal. induction scans as [|s scans IH]; [reflexivity|]. cbn [map]. f_equal.
    - specialize (H s (or_introl eq_refl)). destruct s as [|p0 s]; [reflexivity|]. cbn [first_z]. rewrite <- (map_id (p0 :: s)) at 2.
      apply map_ext_in. intros p Hp. rewrite (H p0 p (or_introl eq_refl) Hp). destruct p; reflexivity.
    - apply IH. intros t Ht. apply H. right. assumption.
  Qed.
End Marks.

(** C30: the window is centred on the robot to within one cell and its centre is a multiple of the resolution. *)
Theorem C30_window_is_centred res n pos o : (0 < res)%Q -> origin res n pos = Ok o ->
  exists k, (o + inject_Z n * res * (1 # 2) == inject_Z k * res)%Q /\ (Qabs (o + inject_Z n * res * (1 # 2) - pos) < res)%Q.
Proof.
  intros R. unfold origin, to_int. destruct (_ && _); [|discriminate]. cbn [bind]. intros H. injection H as <-. exists (trunc (pos / res)%Q).
  assert (C : (inject_Z (trunc (pos / res)%Q) * res - inject_Z n * res * (1 # 2) + inject_Z n * res * (1 # 2) == inject_Z (trunc (pos / res)%Q) * res)%Q) by ring.
  split; [exact C|]. rewrite C.
  assert (T : forall q, (- (1) < inject_Z (trunc q) - q < 1)%Q).
  { intros [a d]. unfold trunc, Qlt, Qminus, Qplus, Qopp, inject_Z. cbn [Qnum Qden]. rewrite !Z.mul_1_r.
    pose proof (Z.quot_rem' a (Z.pos d)). pose proof (Z.rem_bound_abs a (Z.pos d) ltac:(lia)). change (Z.pos (1 * d)) with (Z.pos d). nia. }
  destruct (T (pos / res)%Q) as [T1 T2]. apply Qabs_Qlt_condition.
  assert (E : (pos == pos / res * res)%Q) by (field; lra).
  set (t := inject_Z (trunc (pos / res)%Q)) in *. set (q := (pos / res)%Q) in *. rewrite E. split; nra.
Qed.

(** Refuted: "points outside the window mark nothing".  A point 0.5 cells left of the window marks column 0. *)
Example w10 : window := Window (1 # 10) 10 0 0 0 2 0.
Example w10_good : good_window w10.
Proof. split; [reflexivity|cbn; lia]. Qed.
Theorem C30_points_outside_mark_nothing_refuted :
  exists w p d, good_window w /\ in_height w p /\ (p_x p < w_ox w)%Q /\
    draw_clouds w [[p]] = Ok d /\ In 100 d.
Proof.
  exists w10, (Point (-1 # 20) (1 # 4) 1). eexists. split; [exact w10_good|]. split; [split; vm_compute; discriminate|]. split; [reflexivity|].
  split; [vm_compute; reflexivity|]. vm_compute. tauto.
Qed.
(** Refuted: scans use the height of their first point only: a point above the height limit marks a cell, and a point within
    it does not. *)
Theorem C30_scan_heights_are_tested_per_point_refuted :
  exists w p q d1 d2, good_window w /\ in_height w p /\ ~ in_height w q /\
    draw_scans w [[p; q]] = Ok d1 /\ nth 22 d1 0 = 100 /\ in_column (w_res w) (w_ox w) 2 (p_x q) /\ in_column (w_res w) (w_oy w) 2 (p_y q) /\
    draw_scans w [[q; p]] = Ok d2 /\ nth 55 d2 0 = 0 /\ in_column (w_res w) (w_ox w) 5 (p_x p) /\ in_column (w_res w) (w_oy w) 5 (p_y p).
Proof.
  exists w10, (Point (55 # 100) (55 # 100) 1), (Point (25 # 100) (25 # 100) 3). eexists. eexists. split; [exact w10_good|].
  split; [split; vm_compute; discriminate|]. split; [intros [_ H]; vm_compute in H; apply H; reflexivity|].
  split; [vm_compute; reflexivity|]. split; [vm_compute; reflexivity|]. split; [split; [vm_compute; discriminate|reflexivity]|]. split; [split; [vm_compute; discriminate|reflexivity]|].
  split; [vm_compute; reflexivity|]. split; [vm_compute; reflexivity|]. split; [split; [vm_compute; discriminate|reflexivity]|]. split; [vm_compute; discriminate|reflexivity].
Qed.
(** Refuted: a finite point far away is converted out of the range of int. *)
Theorem C30_drawing_is_defined_refuted : exists w p, good_window w /\ draw_clouds w [[p]] = UB.
Proof. exists w10, (Point (inject_Z (2 ^ 40)) 0 1). split; [exact w10_good|vm_compute; reflexivity]. Qed.

Example C30_example : exists d, draw_clouds w10 [[Point (31 # 100) (48 # 100) 1; Point (31 # 100) (9 # 10) 3]; [Point 2 0 1]] = Ok d /\
  nth (Z.to_nat (4 * 10 + 3)) d (-1) = 100 /\ count_occ Z.eq_dec d 100 = 1%nat.
Proof. eexists. split; [vm_compute; reflexivity|]. split; reflexivity. Qed.
Example C30_example_meets : forall p, In p (concat [[Point (31 # 100) (48 # 100) 1; Point (31 # 100) (9 # 10) 3]; [Point 2 0 1]]) -> in_height w10 p ->
  representable w10 p /\ ~ just_below (w_res w10) (w_ox w10) (p_x p) /\ ~ just_below (w_res w10) (w_oy w10) (p_y p).
Proof.
  intros p [<-|[<-|[<-|[]]]] _; (split; [split; split; reflexivity|]); split; intros [A B]; vm_compute in A, B; discriminate.
Qed.

(** ** The large map *)
Lemma nth_build (f : Z -> Z) (h : Z -> outcome Z) k : 0 <= k -> (forall a, 0 <= a < k -> h a = Ok (f a)) ->
  forall d0, exists d, foldM (fun d a => do v <- h a; Ok (d ++ [v])) (range_excl 0 k) d0 = Ok (d0 ++ d) /\ length d = Z.to_nat k /\
    forall a, 0 <= a < k -> nth (Z.to_nat a) d (-1) = f a.
Proof.
  intros Hk H d0. exists (map f (range_excl 0 k)).
  assert (G : forall l d0, (forall a, In a l -> h a = Ok (f a)) -> foldM (fun d a => do v <- h a; Ok (d ++ [v])) l d0 = Ok (d0 ++ map f l)).
  { induction l as [|a l IH]; intros e Hl; cbn; [rewrite app_nil_r; reflexivity|]. rewrite (Hl a (or_introl eq_refl)). cbn.
    rewrite IH by (intros; apply Hl; right; assumption). rewrite <- app_assoc. reflexivity. }
  split; [apply G; intros a Ha; apply in_range_excl in Ha; auto|].
  assert (LL : length (range_excl 0 k) = Z.to_nat k) by (unfold range_excl, range_incl; rewrite map_length, seq_length; f_equal; lia).
  split; [rewrite map_length; exact LL|]. intros a Ha. rewrite (nth_indep _ _ (f (-1))) by (rewrite map_length; lia). rewrite map_nth. f_equal.
  unfold range_excl, range_incl. replace (-1) with ((fun k => 0 + Z.of_nat k) 0%nat - 1) by reflexivity.
  rewrite (nth_indep _ _ ((fun k => 0 + Z.of_nat k) 0%nat)) by (rewrite map_length, seq_length; lia). rewrite (map_nth (fun k => 0 + Z.of_nat k)). rewrite seq_nth by lia. lia.
Qed.

(** Squared distance, in cells, of the lower left corner of cell (lx, ly) from the window centre. *)
Definition centre_dist2 (n lx ly : Z) : Q :=
  ((inject_Z lx - (n # 2)) * (inject_Z lx - (n # 2)) + (inject_Z ly - (n # 2)) * (inject_Z ly - (n # 2)))%Q.
(** What the options ask for: an obstacle ring of two cells, and nothing known outside the circle. *)
Definition wanted (o : options) (n : Z) (lx ly : Z) (v : Z) : Z :=
  if opt_surrounded o && Qle_bool (centre_dist2 n lx ly) ((n # 2) * (n # 2)) && Qle_bool (((n # 2) - 2) * ((n # 2) - 2)) (centre_dist2 n lx ly) then 100
  else if opt_round o && negb (Qle_bool (centre_dist2 n lx ly) ((n # 2) * (n # 2))) then -1 else v.

Lemma crop_cell_spec o n g gx gy lx ly : good_large g -> crop_cell o n g gx gy lx ly = Ok (wanted o n lx ly (large_value g (gx + lx) (gy + ly))).
Proof.
  intros (W & H & L). unfold crop_cell, wanted. cbv zeta. fold (centre_dist2 n lx ly).
  destruct (opt_surrounded o && _ && _); [reflexivity|]. destruct (opt_round o && _); [reflexivity|].
  unfold large_value. set (x := gx + lx). set (y := gy + ly).
  destruct ((x <? 0) || (y <? 0) || (g_w g <=? x) || (g_h g <=? y)) eqn:E.
  - replace (_ && _ && _ && _) with false; [reflexivity|]. lia.
  - replace ((0 <=? x) && (x <? g_w g) && (0 <=? y) && (y <? g_h g)) with true by lia.
    assert (0 <= y * g_w g + x < Z.of_nat (length (g_data g))) by (rewrite L; nia).
    replace (y * g_w g + x <? Z.of_nat (length (g_data g))) with true by lia. f_equal. apply nth_indep. lia.
Qed.

(** [k] is the whole number of cells nearest to the distance between the lower edges. *)
Definition nearest_offset (res lo go : Q) (k : Z) : Prop := (Qabs ((lo - go) - inject_Z k * res) <= res * (1 # 2))%Q.

Lemma offset_nearest res lo go : (0 < res)%Q -> nearest_offset res lo go (offset res lo go).
Proof.
  intros R. unfold nearest_offset, offset. pose proof (lround_near ((lo - go) / res)%Q) as H. apply Qabs_Qle_condition in H. destruct H as [H1 H2].
  apply Qabs_Qle_condition. assert (E : ((lo - go) == (lo - go) / res * res)%Q) by (field; lra).
  set (q := ((lo - go) / res)%Q) in *. set (k := inject_Z (lround q)) in *. rewrite E. split; nra.
Qed.

(** C31: every cell of the local map equals the corresponding cell of the large map, -1 outside, where corresponding means
    shifted by the nearest whole number of cells; the two option overlays are applied on top. *)
Theorem C31_window_shows_the_large_map o res n g wx wy : (0 < res)%Q -> 0 < n -> good_large g ->
  exists gx gy d, nearest_offset res wx (g_ox g) gx /\ nearest_offset res wy (g_oy g) gy /\
    crop o res n g wx wy = Ok d /\ Z.of_nat (length d) = n * n /\
    forall lx ly, 0 <= lx < n -> 0 <= ly < n ->
      nth (Z.to_nat (ly * n + lx)) d (-1) = wanted o n lx ly (large_value g (gx + lx) (gy + ly)).
Proof.
  intros R N G. exists (offset res wx (g_ox g)), (offset res wy (g_oy g)).
  set (gx := offset res wx (g_ox g)). set (gy := offset res wy (g_oy g)).
  destruct (nth_build (fun a => wanted o n (a mod n) (a / n) (large_value g (gx + a mod n) (gy + a / n)))
    (fun a => crop_cell o n g gx gy (a mod n) (a / n)) (n * n) ltac:(nia) (fun a _ => crop_cell_spec o n g gx gy _ _ G) []) as (d & E & L & H).
  exists d. split; [apply offset_nearest; assumption|]. split; [apply offset_nearest; assumption|]. split; [exact E|]. split; [nia|].
  intros lx ly Hx Hy. rewrite H by nia. cbv beta.
  replace ((ly * n + lx) mod n) with lx by (apply (Z.mod_unique_pos _ _ ly); lia).
  replace ((ly * n + lx) / n) with ly by (apply (Z.div_unique_pos _ _ _ lx); lia). reflexivity.
Qed.

(** With no options the window is a plain copy; if the two grids are aligned the copy is in place: every cell shows the
    large-map cell that covers the same square. *)
Theorem C31_aligned_window_is_exact res n g wx wy kx ky : (0 < res)%Q -> 0 < n -> good_large g ->
  (wx == g_ox g + inject_Z kx * res)%Q -> (wy == g_oy g + inject_Z ky * res)%Q ->
  exists d, crop (Options false false false) res n g wx wy = Ok d /\
    forall lx ly X Y, 0 <= lx < n -> 0 <= ly < n ->
      (wx + inject_Z lx * res == g_ox g + inject_Z X * res)%Q -> (wy + inject_Z ly * res == g_oy g + inject_Z Y * res)%Q ->
      nth (Z.to_nat (ly * n + lx)) d (-1) = large_value g X Y.
Proof.
  intros R N G AX AY. destruct (C31_window_shows_the_large_map (Options false false false) res n g wx wy R N G) as (gx & gy & d & NX & NY & E & _ & H).
  exists d. split; [assumption|]. intros lx ly X Y Hx Hy EX EY. rewrite (H lx ly Hx Hy). unfold wanted. cbn [opt_surrounded opt_round andb].
  assert (K : forall lo go k j l, (lo == go + inject_Z k * res)%Q -> nearest_offset res lo go j -> forall V, (lo + inject_Z l * res == go + inject_Z V * res)%Q -> V = j + l).
  { intros lo go k j l E1 E2 V E3. unfold nearest_offset in E2. rewrite E1 in E2. apply Qabs_Qle_condition in E2. destruct E2 as [E2 E4].
    rewrite E1 in E3.
    assert (EE : ((inject_Z V - (inject_Z k + inject_Z l)) * res == 0)%Q) by lra.
    apply Qmult_integral in EE. destruct EE as [EE|EE]; [|lra].
    assert (F1 : (inject_Z (k - j) <= 1 # 2)%Q).
    { unfold Z.sub. rewrite inject_Z_plus, inject_Z_opp. apply (Qmult_le_r _ _ res R). lra. }
    assert (F2 : (- (1 # 2) <= inject_Z (k - j))%Q).
    { unfold Z.sub. rewrite inject_Z_plus, inject_Z_opp. apply (Qmult_le_r _ _ res R). lra. }
    assert (V = k + l) by (apply inject_Z_injective; rewrite inject_Z_plus; lra).
    unfold Qle, inject_Z in F1, F2. cbn in F1, F2. lia. }
  rewrite (K _ _ _ _ _ AX NX X EX), (K _ _ _ _ _ AY NY Y EY). reflexivity.
Qed.

(** Occlusion by any table of addresses of the map. *)
Section Occlusion.
  Variable table : Z -> list Z.
  Variable n : Z.
  Hypothesis N : 0 < n.
  Hypothesis T : forall a b, In b (table a) -> 0 <= b < n * n.
  Let at_ (d : list Z) a := nth (Z.to_nat a) d 0.

  Lemma erase_spec l : forall d, Z.of_nat (length d) = n * n -> (forall b, In b l -> 0 <= b < n * n) ->
    exists d', foldM (fun d a => if (0 <=? a) && (a <? Z.of_nat (length d)) then Ok (replace_nth (Z.to_nat a) (-1) d) else UB) l d = Ok d' /\
      length d' = length d /\ forall a, 0 <= a < n * n -> (In a l -> at_ d' a = -1) /\ (~ In a l -> at_ d' a = at_ d a).
  Proof.
    induction l as [|b l IH]; intros d L F; cbn [foldM].
    - exists d. split; [reflexivity|]. split; [reflexivity|]. intros. split; [intros []|reflexivity].
    - pose proof (F b (or_introl eq_refl)). replace ((0 <=? b) && (b <? Z.of_nat (length d))) with true by lia. cbn [bind].
      destruct (IH (replace_nth (Z.to_nat b) (-1) d)) as (d' & E & L' & H'); [rewrite replace_nth_length; assumption|intros; apply F; right; assumption|].
      exists d'. split; [assumption|]. rewrite replace_nth_length in L'. split; [assumption|]. intros a Ha. destruct (H' a Ha) as [H1 H2].
      destruct (in_dec Z.eq_dec a l) as [I|I].
      + split; [auto|]. intros X. exfalso. apply X. right. assumption.
      + rewrite (H2 I). unfold at_. rewrite nth_replace by lia. destruct (Nat.eqb_spec (Z.to_nat a) (Z.to_nat b)).
        * split; [reflexivity|]. intros X. exfalso. apply X. left. lia.
        * split; [|reflexivity]. intros [->|?]; [congruence|contradiction].
  Qed.

  (** C31: occlusion never changes a cell to anything but unknown, hides only cells that some obstacle of the input hides, and
      hides everything behind an obstacle that is not itself hidden. *)
  Theorem C31_occlusion_only_hides data : Z.of_nat (length data) = n * n ->
    exists d, occlude table n data = Ok d /\ length d = length data /\
      forall a, 0 <= a < n * n ->
        (nth (Z.to_nat a) d 0 = nth (Z.to_nat a) data 0 \/
         nth (Z.to_nat a) d 0 = -1 /\ exists b, 0 <= b < n * n /\ nth (Z.to_nat b) data 0 = 100 /\ In a (table b)) /\
        (forall b, 0 <= b < n * n -> nth (Z.to_nat b) d 0 = 100 -> In a (table b) -> nth (Z.to_nat a) d 0 = -1).
  Proof.
    intros L. unfold occlude.
    assert (G : forall l d0, Z.of_nat (length d0) = n * n -> (forall a, In a l -> 0 <= a < n * n) -> exists d,
      foldM (fun d addr => if nth (Z.to_nat addr) d 0 =? 100
        then foldM (fun d a => if (0 <=? a) && (a <? Z.of_nat (length d)) then Ok (replace_nth (Z.to_nat a) (-1) d) else UB) (table addr) d
        else Ok d) l d0 = Ok d /\ length d = length d0 /\
      (forall a, 0 <= a < n * n -> at_ d a = at_ d0 a \/ at_ d a = -1 /\ exists b, In b l /\ at_ d0 b = 100 /\ In a (table b)) /\
      (forall a b, 0 <= a < n * n -> In b l -> at_ d b = 100 -> In a (table b) -> at_ d a = -1)).
    { induction l as [|x l IH]; intros d0 L0 F; cbn [foldM].
      - exists d0. split; [reflexivity|]. split; [reflexivity|]. split; [intros; left; reflexivity|intros ? ? ? []].
      - fold (at_ d0 x). pose proof (F x (or_introl eq_refl)) as Fx. destruct (Z.eqb_spec (at_ d0 x) 100) as [E|E].
        + destruct (erase_spec (table x) d0 L0 (T x)) as (d1 & E1 & L1 & H1). rewrite E1. cbn [bind].
          destruct (IH d1 ltac:(lia) (fun a Ha => F a (or_intror Ha))) as (d & E2 & L2 & H2 & H3). exists d. split; [assumption|]. split; [lia|].
          assert (K : forall a, 0 <= a < n * n -> at_ d1 a = at_ d0 a \/ at_ d1 a = -1 /\ In a (table x)).
          { intros a Ha. destruct (H1 a Ha) as [P Q]. destruct (in_dec Z.eq_dec a (table x)); [right|left]; auto. }
          split.
          * intros a Ha. destruct (H2 a Ha) as [Q|(Q & b & B1 & B2 & B3)].
            -- rewrite Q. destruct (K a Ha) as [R|[R1 R2]]; [left; assumption|right]. split; [assumption|]. exists x. split; [left; reflexivity|split; assumption].
            -- right. split; [assumption|]. exists b. split; [right; assumption|]. split; [|assumption].
               destruct (K b (F b (or_intror B1))) as [R|[R1 R2]]; congruence.
          * intros a b Ha [<-|Hb] V I; [|eauto]. destruct (H1 a Ha) as [P _]. specialize (P I).
            destruct (H2 a Ha) as [Q|(Q & _)]; [congruence|assumption].
        + cbn [bind]. destruct (IH d0 L0 (fun a Ha => F a (or_intror Ha))) as (d & E2 & L2 & H2 & H3). exists d. split; [assumption|]. split; [lia|]. split.
          * intros a Ha. destruct (H2 a Ha) as [Q|(Q & b & B1 & B2 & B3)]; [left; assumption|right]. split; [assumption|]. exists b. split; [right; assumption|split; assumption].
          * intros a b Ha [<-|Hb] V I; [|eauto]. destruct (H2 x Fx) as [Q|(Q & _)]; congruence. }
    destruct (G (range_excl 0 (n * n)) data L) as (d & E & L1 & H1 & H2); [intros a Ha; apply in_range_excl in Ha; assumption|].
    exists d. split; [assumption|]. split; [assumption|]. intros a Ha. split.
    - destruct (H1 a Ha) as [Q|(Q & b & B1 & B2 & B3)]; [left; assumption|right]. split; [assumption|]. exists b. apply in_range_excl in B1. auto.
    - intros b Hb V I. apply (H2 a b); [assumption|apply in_range_excl; assumption|assumption|assumption].
  Qed.
End Occlusion.

(** C31: the published local map, with every option: each cell is the one of the cropped window, or unknown because an obstacle of the window hides it. *)
Theorem C31_local_map table o res n g wx wy : (0 < res)%Q -> 0 < n -> good_large g -> (forall a b, In b (table a) -> 0 <= b < n * n) ->
  exists gx gy d, nearest_offset res wx (g_ox g) gx /\ nearest_offset res wy (g_oy g) gy /\ local_map o table res n g wx wy = Ok d /\ Z.of_nat (length d) = n * n /\
    let shown lx ly := wanted o n lx ly (large_value g (gx + lx) (gy + ly)) in
    forall lx ly, 0 <= lx < n -> 0 <= ly < n ->
      nth (Z.to_nat (ly * n + lx)) d (-1) = shown lx ly \/
      opt_occlusion o = true /\ nth (Z.to_nat (ly * n + lx)) d (-1) = -1 /\
        exists bx by_, 0 <= bx < n /\ 0 <= by_ < n /\ shown bx by_ = 100 /\ In (ly * n + lx) (table (by_ * n + bx)).
Proof.
  intros R N G T. destruct (C31_window_shows_the_large_map o res n g wx wy R N G) as (gx & gy & d & NX & NY & E & L & H).
  unfold local_map. rewrite E. cbn [bind]. destruct (opt_occlusion o) eqn:O.
  - destruct (C31_occlusion_only_hides table n N T d L) as (d' & E' & L' & H'). exists gx, gy, d'. split; [exact NX|]. split; [exact NY|]. split; [exact E'|]. split; [lia|]. cbv zeta.
    intros lx ly Hx Hy. assert (Ra : 0 <= ly * n + lx < n * n) by nia. destruct (H' _ Ra) as [[Q|(Q & b & B1 & B2 & B3)] _].
    + left. rewrite <- H by assumption. rewrite (nth_indep d' (-1) 0), (nth_indep d (-1) 0) by nia. exact Q.
    + right. split; [reflexivity|]. split; [rewrite (nth_indep d' (-1) 0) by nia; exact Q|]. exists (b mod n), (b / n).
      assert (0 <= b mod n < n) by (apply Z.mod_pos_bound; lia). assert (0 <= b / n < n) by (split; [apply Z.div_pos; lia|apply Z.div_lt_upper_bound; lia]).
      assert (Eb : b / n * n + b mod n = b) by (pose proof (Z.div_mod b n ltac:(lia)); lia).
      split; [assumption|]. split; [assumption|]. rewrite <- H by assumption. rewrite Eb. split; [|exact B3]. rewrite (nth_indep d (-1) 0) by nia. exact B2.
  - exists gx, gy, d. split; [exact NX|]. split; [exact NY|]. split; [reflexivity|]. split; [exact L|]. cbv zeta. intros lx ly Hx Hy. left. apply H; assumption.
Qed.

Example g5 : large := Large 5 4 (-1) (-1) [0;0;100;0;0; 0;7;0;0;0; 0;0;0;-1;0; 100;0;0;0;50].
Example g5_good : good_large g5.
Proof. split; [cbn; lia|]. split; [cbn; lia|]. reflexivity. Qed.
(** Window of 4x4 cells of 0.5 m whose corner is one cell right of and two cells below the map's corner. *)
Example C31_example : crop (Options false false false) (1 # 2) 4 g5 (- 1 # 2) (- 2) =
  Ok [-1;-1;-1;-1; -1;-1;-1;-1; 0;100;0;0; 7;0;0;0].
Proof. vm_compute. reflexivity. Qed.
Example C31_example_aligned : (- 1 # 2 == g_ox g5 + inject_Z 1 * (1 # 2))%Q /\ (-2 == g_oy g5 + inject_Z (-2) * (1 # 2))%Q.
Proof. split; reflexivity. Qed.
Example C31_example_occlusion : occlude (fun a => if a =? 1 then [0; 2] else if a =? 2 then [3] else []) 2 [100; 100; 100; 0] = Ok [-1; 100; -1; 0].
Proof. vm_compute. reflexivity. Qed.

Print Assumptions C30_cells_show_their_points.
Print Assumptions C30_cells_contain_their_points.
Print Assumptions C30_level_scans_are_drawn_like_clouds.
Print Assumptions C30_window_is_centred.
Print Assumptions C30_points_outside_mark_nothing_refuted.
Print Assumptions C30_scan_heights_are_tested_per_point_refuted.
Print Assumptions C30_drawing_is_defined_refuted.
Print Assumptions C31_window_shows_the_large_map.
Print Assumptions C31_aligned_window_is_exact.
Print Assumptions C31_occlusion_only_hides.
Print Assumptions C31_local_map.
