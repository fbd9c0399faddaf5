(** C70: simulated occlusion of the local map hides what is behind obstacles. *)
From Coq Require Import Reals Lra Lia Psatz QArith.
From Verif Require Import Common CSpace Sensor SensorProps Occlusion.
Local Open Scope R_scope.

(** *** Specification *)
(** The window has [n] x [n] cells; cell (cx, cy) is the square from (cx, cy) to (cx + 1, cy + 1), with address cy * n + cx, and the robot is in the centre. *)
Definition cell_has (n a : Z) (x y : R) : Prop :=
  IZR (a mod n) <= x < IZR (a mod n) + 1 /\ IZR (a / n) <= y < IZR (a / n) + 1.
(** Distance of the corner of a cell from the robot, and the point at distance [r] on the line of sight to it. *)
Definition far (n b : Z) : R := sqrt (Rsqr (IZR (b mod n) - IZR n / 2) + Rsqr (IZR (b / n) - IZR n / 2)).
Definition sight_x (n b : Z) (r : R) : R := IZR n / 2 + (IZR (b mod n) - IZR n / 2) * (r / far n b).
Definition sight_y (n b : Z) (r : R) : R := IZR n / 2 + (IZR (b / n) - IZR n / 2) * (r / far n b).
(** The obstacles that hide: in order of their addresses, those that are not hidden by an earlier one. *)
Definition hiders (hides : Z -> Z -> Prop) (obstacle : Z -> Prop) (sel : Z -> Prop) : Prop :=
  forall b, sel b <-> obstacle b /\ forall b', (b' < b)%Z -> sel b' -> ~ hides b' b.

(** *** Proofs *)
Lemma Int_part_unique z x : IZR z <= x < IZR z + 1 -> Int_part x = z.
Proof.
  intros [H1 H2]. unfold Int_part.
  pose proof (tech_up x (z + 1)) as T. rewrite plus_IZR in T. rewrite <- T by lra. lia.
Qed.

Lemma Int_part_spec x : IZR (Int_part x) <= x < IZR (Int_part x) + 1.
Proof. pose proof (base_Int_part x). lra. Qed.
Lemma addr_split n zx zy : (0 <= zx < n)%Z -> ((zy * n + zx) mod n = zx)%Z /\ ((zy * n + zx) / n = zy)%Z.
Proof.
  intros H. rewrite Z.add_comm. rewrite Z.mod_add, Z.div_add by lia. rewrite Z.mod_small, Z.div_small by lia. lia.
Qed.

Section Geo.
  Variable n : Z.
  Hypothesis N : (0 < n)%Z.
  Lemma far_dist b : (0 <= b)%Z -> dist n b = far n b.
  Proof. intros H. unfold dist, far, rel_x, rel_y, Rsqr. rewrite Z.rem_mod_nonneg, Z.quot_div_nonneg by lia. reflexivity. Qed.
  Lemma cell_range b : (0 <= b < n * n)%Z -> (0 <= b mod n < n)%Z /\ (0 <= b / n < n)%Z.
  Proof.
    intros H. split; [apply Z.mod_pos_bound; lia|]. split; [apply Z.div_pos; lia|apply Z.div_lt_upper_bound; lia].
  Qed.
  Lemma rel_bound z : (0 <= z < n)%Z -> - (IZR n / 2) <= IZR z - IZR n / 2 <= IZR n / 2 - 1.
  Proof.
    intros [H1 H2]. apply IZR_le in H1. assert (IZR z <= IZR n - 1) by (rewrite <- (minus_IZR n 1); apply IZR_le; lia). lra.
  Qed.
  Lemma N1 : 1 <= IZR n.
  Proof. apply (IZR_le 1). lia. Qed.
  Lemma far_bound b : (0 <= b < n * n)%Z -> 0 <= far n b <= IZR n.
  Proof.
    intros H. destruct (cell_range b H) as [X Y]. apply rel_bound in X, Y. pose proof N1. split; [apply sqrt_pos|]. unfold far.
    apply Rle_trans with (sqrt (Rsqr (IZR n))); [|rewrite sqrt_Rsqr by lra; lra]. apply sqrt_le_1_alt. unfold Rsqr.
    assert (Q : forall u h, - h <= u <= h -> u * u <= h * h) by (intros u h U; pose proof (Rmult_le_pos (h - u) (h + u) ltac:(lra) ltac:(lra)); lra).
    pose proof (Q (IZR (b mod n) - IZR n / 2) (IZR n / 2) ltac:(lra)). pose proof (Q (IZR (b / n) - IZR n / 2) (IZR n / 2) ltac:(lra)). pose proof (Rle_0_sqr (IZR n)) as P. unfold Rsqr in P. lra.
  Qed.
  Lemma shrink z t : (0 <= z < n)%Z -> 0 <= t <= 1 -> 0 <= IZR n / 2 + (IZR z - IZR n / 2) * t < IZR n.
  Proof. intros Z T. apply rel_bound in Z. pose proof N1. split; nra. Qed.

  Lemma truncR_pos x z : 0 <= x -> (truncR x = z <-> IZR z <= x < IZR z + 1).
  Proof.
    intros H. unfold truncR. destruct (Rle_dec 0 x); [|contradiction]. split; [intros <-; apply Int_part_spec|apply Int_part_unique].
  Qed.
  Lemma through_spec b r a : (0 <= b < n * n)%Z -> 1 <= r -> r < far n b - 1 ->
    (through n b r = a <-> (0 <= a < n * n)%Z /\ cell_has n a (sight_x n b r) (sight_y n b r)).
  Proof.
    intros B R1 R2. destruct (cell_range b B) as [X Y]. unfold through. rewrite far_dist by lia. unfold rel_x, rel_y. rewrite Z.rem_mod_nonneg, Z.quot_div_nonneg by lia.
    assert (T : 0 <= r / far n b <= 1).
    { split; [apply Rmult_le_pos; [lra|left; apply Rinv_0_lt_compat; lra]|]. apply (Rmult_le_reg_r (far n b)); [lra|]. unfold Rdiv. rewrite Rmult_assoc, Rinv_l by lra. lra. }
    replace ((IZR (b / n) - IZR n / 2) * r / far n b + IZR n / 2) with (sight_y n b r) by (unfold sight_y, Rdiv; ring).
    replace ((IZR (b mod n) - IZR n / 2) * r / far n b + IZR n / 2) with (sight_x n b r) by (unfold sight_x, Rdiv; ring).
    pose proof (shrink _ _ X T) as SX. pose proof (shrink _ _ Y T) as SY. fold (sight_x n b r) in SX. fold (sight_y n b r) in SY.
    set (vx := sight_x n b r) in *. set (vy := sight_y n b r) in *.
    assert (TX := proj1 (truncR_pos vx (truncR vx) (proj1 SX)) eq_refl). assert (TY := proj1 (truncR_pos vy (truncR vy) (proj1 SY)) eq_refl).
    assert (K : forall v z, 0 <= v < IZR n -> IZR z <= v < IZR z + 1 -> (0 <= z < n)%Z).
    { intros v z V Z. split; [|apply lt_IZR; lra]. assert (-1 < z)%Z by (apply lt_IZR; lra). lia. }
    pose proof (K _ _ SX TX) as KX. pose proof (K _ _ SY TY) as KY. split.
    - intros <-. split; [nia|]. unfold cell_has. destruct (addr_split n (truncR vx) (truncR vy) KX) as [-> ->]. split; assumption.
    - intros (A & CX & CY). apply truncR_pos in CX; [|tauto]. apply truncR_pos in CY; [|tauto]. rewrite CX, CY. pose proof (Z.div_mod a n ltac:(lia)). lia.
  Qed.

  Lemma in_radii m : forall r0 l r, In r (radii m r0 l) <-> exists k : nat, (k < m)%nat /\ r = r0 + INR k / 2 /\ r < l - 1.
  Proof.
    induction m as [|m IH]; intros r0 l r; cbn [radii].
    - split; [intros []|]. intros (k & K & _). lia.
    - destruct (Rlt_dec r0 (l - 1)) as [L|L]; cbn [In].
      + rewrite IH. split.
        * intros [<-|(k & K & -> & B)]; [exists O; cbn [INR]; repeat split; try lia; lra|]. exists (S k). rewrite S_INR. split; [lia|]. split; lra.
        * intros ([|k] & K & -> & B); [left; cbn [INR]; lra|right]. exists k. rewrite S_INR in *. split; [lia|]. split; lra.
      + split; [intros []|]. intros (k & K & -> & B). pose proof (pos_INR k). lra.
  Qed.

  Lemma in_table a b : In b (occlusion_table n a) <->
    (0 <= b < n * n)%Z /\ a <> b /\ exists k : nat, let r := 1 + INR k / 2 in r < far n b - 1 /\ through n b r = a.
  Proof.
    unfold occlusion_table. rewrite filter_In, in_range_excl, andb_true_iff, negb_true_iff, Z.eqb_neq, existsb_exists. split.
    - intros (B & (x & X & E) & D). apply Z.eqb_eq in E. subst x. split; [exact B|]. split; [congruence|]. unfold looks_through in X. apply in_map_iff in X as (r & T & X).
      apply in_radii in X as (k & K & -> & L). exists k. cbv zeta. rewrite far_dist in L by lia. auto.
    - intros (B & D & k & L & T). cbv zeta in *. split; [exact B|]. split; [|congruence]. exists a. split; [|apply Z.eqb_refl]. unfold looks_through. apply in_map_iff. exists (1 + INR k / 2).
      split; [exact T|]. apply in_radii. exists k. rewrite far_dist by lia. split; [|auto]. pose proof (far_bound b B) as F. apply INR_lt.
      rewrite (INR_IZR_INZ (Z.to_nat _)), Z2Nat.id by lia. rewrite mult_IZR. lra.
  Qed.
End Geo.

(** *** Theorems *)
(** An obstacle hides only cells behind it: the line of sight from the robot to the corner of the hidden cell goes through the obstacle's cell, at least 1 cell from
    the robot and more than 1 cell before that corner. *)
Theorem C70_obstacles_hide_what_is_behind_them n a b : (0 < n)%Z -> In b (occlusion_table n a) ->
  (0 <= a < n * n)%Z /\ (0 <= b < n * n)%Z /\ a <> b /\ exists r, 1 <= r < far n b - 1 /\ cell_has n a (sight_x n b r) (sight_y n b r).
Proof.
  intros N H. apply in_table in H as (B & D & k & L & T); [|exact N]. cbv zeta in *. pose proof (pos_INR k). apply through_spec in T as [A C]; [|exact N|exact B|lra|exact L].
  split; [exact A|]. split; [exact B|]. split; [exact D|]. eexists. split; [|exact C]. lra.
Qed.

(** And it hides every cell whose line of sight runs for half a cell through the obstacle's cell there. *)
Theorem C70_obstacles_hide_all_they_cover n a b r1 : (0 < n)%Z -> (0 <= a < n * n)%Z -> (0 <= b < n * n)%Z -> a <> b -> 1 <= r1 -> r1 + 1 / 2 < far n b - 1 ->
  (forall r, r1 <= r <= r1 + 1 / 2 -> cell_has n a (sight_x n b r) (sight_y n b r)) -> In b (occlusion_table n a).
Proof.
  intros N A B D R1 R2 C. apply in_table; [exact N|]. split; [exact B|]. split; [exact D|]. set (z := (- Int_part (- (2 * (r1 - 1))))%Z).
  pose proof (Int_part_spec (- (2 * (r1 - 1)))) as S. assert (Ez : IZR z = - IZR (Int_part (- (2 * (r1 - 1))))) by (unfold z; apply opp_IZR).
  assert (Z0 : (0 <= z)%Z) by (assert (-1 < z)%Z by (apply lt_IZR; lra); lia). exists (Z.to_nat z). cbv zeta. rewrite INR_IZR_INZ, Z2Nat.id by exact Z0. split; [lra|].
  apply through_spec; [exact N|exact B|lra|lra|]. split; [exact A|]. apply C. lra.
Qed.

(** Cells within 2 cells of the robot are never hidden. *)
Theorem C70_near_cells_are_never_hidden n a b : (0 < n)%Z -> far n b <= 2 -> ~ In b (occlusion_table n a).
Proof. intros N F H. apply C70_obstacles_hide_what_is_behind_them in H as (_ & _ & _ & r & R & _); [lra|exact N]. Qed.

(** Which obstacles hide: the exact result of simulated occlusion, for any table of addresses of the map. *)
Section Exact.
  Variable table : Z -> list Z.
  Variable n : Z.
  Hypothesis T : forall a b, In b (table a) -> (0 <= b < n * n)%Z.
  Let val (d : list Z) a := nth (Z.to_nat a) d 0%Z.
  Let step := fun d addr =>
    if (nth (Z.to_nat addr) d 0 =? 100)%Z
    then foldM (fun d a => if ((0 <=? a) && (a <? Z.of_nat (length d)))%Z then Ok (replace_nth (Z.to_nat a) (-1)%Z d) else UB) (table addr) d
    else Ok d.
  Variable data : list Z.
  Hypothesis L : Z.of_nat (length data) = (n * n)%Z.
  Definition masked (sel : list Z) (d : list Z) : Prop := Z.of_nat (length d) = (n * n)%Z /\
    forall a, (0 <= a < n * n)%Z -> (exists b, In b sel /\ In a (table b)) /\ val d a = (-1)%Z \/ (forall b, In b sel -> ~ In a (table b)) /\ val d a = val data a.
  Hypothesis Np : (0 < n)%Z.
  Lemma masked_step sel d x : masked sel d -> (0 <= x < n * n)%Z -> exists d', step d x = Ok d' /\ (
    (val data x = 100%Z /\ (forall b, In b sel -> ~ In x (table b)) /\ masked (sel ++ [x]) d') \/
    (masked sel d' /\ ~ (val data x = 100%Z /\ forall b, In b sel -> ~ In x (table b)))).
  Proof.
    intros [M1 M2] X. unfold step. fold (val d x). destruct (M2 x X) as [[H1 H2]|[H1 H2]].
    - rewrite H2. cbn [Z.eqb]. exists d. split; [reflexivity|]. right. split; [split; assumption|]. intros [_ H]. destruct H1 as (b & B1 & B2). exact (H b B1 B2).
    - destruct (Z.eqb_spec (val d x) 100) as [V|V].
      + destruct (erase_spec table n Np T (table x) d M1 (T x)) as (d1 & E1 & L1 & H). exists d1. split; [exact E1|]. left. split; [congruence|]. split; [exact H1|].
        split; [lia|]. intros a Ha. destruct (H a Ha) as [P Q]. destruct (in_dec Z.eq_dec a (table x)) as [I|I].
        * left. split; [exists x; split; [apply in_or_app; right; left; reflexivity|exact I]|apply P; exact I].
        * destruct (M2 a Ha) as [[(b & B1 & B2) G]|[G1 G2]].
          -- left. split; [exists b; split; [apply in_or_app; left; exact B1|exact B2]|]. transitivity (val d a); [apply Q; exact I|exact G].
          -- right. split; [|transitivity (val d a); [apply Q; exact I|exact G2]]. intros b Hb. apply in_app_or in Hb as [Hb|[<-|[]]]; auto.
      + exists d. split; [reflexivity|]. right. split; [split; assumption|]. intros [H _]. congruence.
  Qed.
  (** [lo]: all addresses below are done. *)
  Lemma masked_run m : forall lo d sel, (0 <= lo)%Z -> (lo + Z.of_nat m = n * n)%Z -> masked sel d ->
    (forall b, In b sel <-> (0 <= b < lo)%Z /\ val data b = 100%Z /\ forall b', (b' < b)%Z -> In b' sel -> ~ In b (table b')) ->
    exists d' sel', foldM step (range_excl lo (n * n)) d = Ok d' /\ masked sel' d' /\
      (forall b, In b sel' <-> (0 <= b < n * n)%Z /\ val data b = 100%Z /\ forall b', (b' < b)%Z -> In b' sel' -> ~ In b (table b')).
  Proof.
    induction m as [|m IH]; intros lo d sel L0 E M S.
    - exists d, sel. replace (range_excl lo (n * n)) with (@nil Z) by (symmetry; unfold range_excl, range_incl; replace (Z.to_nat _) with O by lia; reflexivity).
      split; [reflexivity|]. split; [exact M|]. replace (n * n)%Z with lo by lia. exact S.
    - assert (R : range_excl lo (n * n) = lo :: range_excl (lo + 1) (n * n)).
      { unfold range_excl, range_incl. replace (Z.to_nat (n * n - 1 - lo + 1)) with (Datatypes.S (Z.to_nat (n * n - 1 - (lo + 1) + 1))) by lia. cbn [seq map]. f_equal; [lia|].
        rewrite <- seq_shift, map_map. apply map_ext. intros k. lia. }
      rewrite R. cbn [foldM]. destruct (masked_step sel d lo M ltac:(lia)) as (d1 & -> & C). cbn [bind].
      assert (SL : forall b, In b sel -> (b < lo)%Z) by (intros b Hb; apply S in Hb; lia).
      destruct C as [(V & NH & M1)|(M1 & NH)].
      + apply (IH (lo + 1)%Z d1 (sel ++ [lo]) ltac:(lia) ltac:(lia) M1). intros b. rewrite in_app_iff. cbn [In]. split.
        * intros [Hb|[<-|[]]].
          -- pose proof (SL b Hb). apply S in Hb as (B1 & B2 & B3). split; [lia|]. split; [exact B2|]. intros b' Hl Hb'. apply in_app_or in Hb' as [Hb'|[<-|[]]]; [apply B3; assumption|lia].
          -- split; [lia|]. split; [exact V|]. intros b' Hl Hb'. apply in_app_or in Hb' as [Hb'|[<-|[]]]; [apply NH; exact Hb'|lia].
        * intros (B1 & B2 & B3). destruct (Z.eq_dec b lo) as [->|D]; [auto|]. left. apply S. split; [lia|]. split; [exact B2|]. intros b' Hl Hb'. apply B3; [exact Hl|]. apply in_or_app. auto.
      + apply (IH (lo + 1)%Z d1 sel ltac:(lia) ltac:(lia) M1). intros b. rewrite S. split.
        * intros (B1 & B2 & B3). split; [lia|]. auto.
        * intros (B1 & B2 & B3). split; [|auto]. destruct (Z.eq_dec b lo) as [->|D]; [|lia]. exfalso. apply NH. split; [exact B2|]. intros b' Hb'. apply B3; [apply SL|]; exact Hb'.
  Qed.
  Lemma occlude_exact : exists d sel, occlude table n data = Ok d /\ Z.of_nat (length d) = (n * n)%Z /\
    hiders (fun b a => In a (table b)) (fun b => (0 <= b < n * n)%Z /\ val data b = 100%Z) sel /\
    forall a, (0 <= a < n * n)%Z -> ((exists b, sel b /\ In a (table b)) /\ val d a = (-1)%Z \/ ~ (exists b, sel b /\ In a (table b)) /\ val d a = val data a).
  Proof.
    destruct (masked_run (Z.to_nat (n * n)) 0 data [] ltac:(lia) ltac:(lia)) as (d & sel & E & [M1 M2] & S).
    - split; [exact L|]. intros a Ha. right. split; [intros b []|reflexivity].
    - intros b. split; [intros []|]. intros [H _]. lia.
    - exists d, (fun b => In b sel). split; [exact E|]. split; [exact M1|]. split; [intros b; rewrite S; tauto|]. intros a Ha. destruct (M2 a Ha) as [H|[H1 H2]]; [left; exact H|right].
      split; [|exact H2]. intros (b & B1 & B2). exact (H1 b B1 B2).
  Qed.
End Exact.

(** Simulated occlusion with the table of the node: exactly the cells behind a hiding obstacle become unknown, where of two obstacles, one behind the other,
    the one with the smaller address hides even if it is hidden itself. *)
Theorem C70_exact_shadows n data : (0 < n)%Z -> Z.of_nat (length data) = (n * n)%Z ->
  exists d sel, occlude (occlusion_table n) n data = Ok d /\ Z.of_nat (length d) = (n * n)%Z /\
    hiders (fun b a => In a (occlusion_table n b)) (fun b => (0 <= b < n * n)%Z /\ nth (Z.to_nat b) data 0%Z = 100%Z) sel /\
    forall a, (0 <= a < n * n)%Z ->
      (exists b, sel b /\ In a (occlusion_table n b)) /\ nth (Z.to_nat a) d 0%Z = (-1)%Z \/
      ~ (exists b, sel b /\ In a (occlusion_table n b)) /\ nth (Z.to_nat a) d 0%Z = nth (Z.to_nat a) data 0%Z.
Proof. intros N L. apply occlude_exact; [|exact L|exact N]. intros a b H. apply C70_obstacles_hide_what_is_behind_them in H; [tauto|exact N]. Qed.

(** In terms of lines of sight: a cell whose line of sight is free is shown as it is ... *)
Theorem C70_free_sight_is_shown n data d b : (0 < n)%Z -> Z.of_nat (length data) = (n * n)%Z -> occlude (occlusion_table n) n data = Ok d -> (0 <= b < n * n)%Z ->
  (forall a r, (0 <= a < n * n)%Z -> a <> b -> 1 <= r < far n b - 1 -> cell_has n a (sight_x n b r) (sight_y n b r) -> nth (Z.to_nat a) data 0%Z <> 100%Z) ->
  nth (Z.to_nat b) d 0%Z = nth (Z.to_nat b) data 0%Z.
Proof.
  intros N L E B F. destruct (C70_exact_shadows n data N L) as (d' & sel & E' & _ & S & H). rewrite E in E'. injection E' as <-. destruct (H b B) as [[(a & A1 & A2) _]|[_ V]]; [exfalso|exact V].
  apply S in A1 as [[A0 A1] _]. apply C70_obstacles_hide_what_is_behind_them in A2 as (_ & _ & D & r & R & C); [|exact N]. exact (F a r A0 D R C A1).
Qed.
(** ... and one that is covered by an obstacle that is shown is unknown. *)
Theorem C70_covered_cells_are_unknown n data d a b r1 : (0 < n)%Z -> Z.of_nat (length data) = (n * n)%Z -> occlude (occlusion_table n) n data = Ok d ->
  (0 <= a < n * n)%Z -> (0 <= b < n * n)%Z -> a <> b -> nth (Z.to_nat a) d 0%Z = 100%Z -> 1 <= r1 -> r1 + 1 / 2 < far n b - 1 ->
  (forall r, r1 <= r <= r1 + 1 / 2 -> cell_has n a (sight_x n b r) (sight_y n b r)) -> nth (Z.to_nat b) d 0%Z = (-1)%Z.
Proof.
  intros N L E A B D V R1 R2 C. pose proof (C70_obstacles_hide_all_they_cover n a b r1 N A B D R1 R2 C) as I.
  destruct (C31_occlusion_only_hides (occlusion_table n) n N) with (data := data) as (d' & E' & _ & H); [|exact L|].
  - intros x y Hxy. apply C70_obstacles_hide_what_is_behind_them in Hxy; [tauto|exact N].
  - rewrite E in E'. injection E' as <-. destruct (H b B) as [_ K]. exact (K a A V I).
Qed.

(** The published local map with the table of the node. *)
Theorem C70_local_map o res n g wx wy : (0 < res)%Q -> (0 < n)%Z -> good_large g ->
  exists gx gy d, nearest_offset res wx (g_ox g) gx /\ nearest_offset res wy (g_oy g) gy /\ local_map o (occlusion_table n) res n g wx wy = Ok d /\ Z.of_nat (length d) = (n * n)%Z /\
    let shown lx ly := wanted o n lx ly (large_value g (gx + lx) (gy + ly)) in
    forall lx ly, (0 <= lx < n)%Z -> (0 <= ly < n)%Z ->
      nth (Z.to_nat (ly * n + lx)) d (-1)%Z = shown lx ly \/
      opt_occlusion o = true /\ nth (Z.to_nat (ly * n + lx)) d (-1)%Z = (-1)%Z /\
        exists bx by_ r, (0 <= bx < n)%Z /\ (0 <= by_ < n)%Z /\ shown bx by_ = 100%Z /\ let b := (ly * n + lx)%Z in
          1 <= r < far n b - 1 /\ IZR bx <= sight_x n b r < IZR bx + 1 /\ IZR by_ <= sight_y n b r < IZR by_ + 1.
Proof.
  intros R N G. destruct (C31_local_map (occlusion_table n) o res n g wx wy R N G) as (gx & gy & d & NX & NY & E & L & H).
  - intros x y Hxy. apply C70_obstacles_hide_what_is_behind_them in Hxy; [tauto|exact N].
  - exists gx, gy, d. split; [exact NX|]. split; [exact NY|]. split; [exact E|]. split; [exact L|]. cbv zeta in *. intros lx ly Hx Hy. destruct (H lx ly Hx Hy) as [Q|(O & Q & bx & by_ & B1 & B2 & V & I)]; [left; exact Q|right].
    split; [exact O|]. split; [exact Q|]. apply C70_obstacles_hide_what_is_behind_them in I as (_ & _ & _ & r & Rr & C); [|exact N]. exists bx, by_, r. unfold cell_has in C.
    destruct (addr_split n bx by_ B1) as [E1 E2]. rewrite E1, E2 in C. tauto.
Qed.

(** *** Cells at a rational distance *)
Lemma Int_part_div p q : (0 < q)%Z -> Int_part (IZR p / IZR q) = (p / q)%Z.
Proof.
  intros Q. apply Int_part_unique. assert (0 < IZR q) by (apply (IZR_lt 0); exact Q). pose proof (Z.div_mod p q ltac:(lia)) as D. pose proof (Z.mod_pos_bound p q Q) as [M1 M2].
  apply (f_equal IZR) in D. rewrite plus_IZR, mult_IZR in D. apply IZR_le in M1. apply IZR_lt in M2.
  split; [apply (Rmult_le_reg_r (IZR q)); [assumption|]|apply (Rmult_lt_reg_r (IZR q)); [assumption|]]; unfold Rdiv; rewrite Rmult_assoc, Rinv_l by lra; lra.
Qed.
Definition hides_at (n l b : Z) (k : Z) : Z :=
  ((((2 * (b / n) - n) * (2 + k) + n * l) / (2 * l)) * n + ((2 * (b mod n) - n) * (2 + k) + n * l) / (2 * l))%Z.
Lemma rational_hides n l b a : (0 < n)%Z -> (0 < l)%Z -> (0 <= b < n * n)%Z ->
  ((2 * (b mod n) - n) * (2 * (b mod n) - n) + (2 * (b / n) - n) * (2 * (b / n) - n) = l * l)%Z ->
  (In b (occlusion_table n a) <-> a <> b /\ exists k, (0 <= k < l - 4)%Z /\ hides_at n l b k = a).
Proof.
  intros N Ll B E. assert (LP : 0 < IZR l) by (apply (IZR_lt 0); exact Ll).
  assert (F : far n b = IZR l / 2).
  { unfold far. rewrite <- (sqrt_Rsqr (IZR l / 2)) by lra. f_equal. apply (f_equal IZR) in E. rewrite plus_IZR, !mult_IZR, !minus_IZR, !mult_IZR in E. unfold Rsqr. lra. }
  rewrite in_table by exact N.
  assert (K : forall k, (0 <= k < l - 4)%Z -> through n b (1 + IZR k / 2) = hides_at n l b k).
  { intros k Hk. destruct (cell_range n N b B) as [X Y]. unfold through, hides_at. rewrite far_dist by lia. unfold rel_x, rel_y. rewrite Z.rem_mod_nonneg, Z.quot_div_nonneg by lia. rewrite F.
    assert (T : forall z, (0 <= z < n)%Z -> truncR ((IZR z - IZR n / 2) * (1 + IZR k / 2) / (IZR l / 2) + IZR n / 2) = (((2 * z - n) * (2 + k) + n * l) / (2 * l))%Z).
    { intros z Z. assert (G : (IZR z - IZR n / 2) * (1 + IZR k / 2) / (IZR l / 2) + IZR n / 2 = IZR ((2 * z - n) * (2 + k) + n * l) / IZR (2 * l)).
      { rewrite plus_IZR, !mult_IZR, minus_IZR, plus_IZR, mult_IZR. field. lra. }
      rewrite <- Int_part_div by lia. rewrite <- G. unfold truncR. destruct (Rle_dec 0 _) as [|C]; [reflexivity|]. exfalso. apply C. rewrite G. apply Rmult_le_pos; [|left; apply Rinv_0_lt_compat; apply (IZR_lt 0); lia].
      apply (IZR_le 0). nia. }
    rewrite !T by assumption. reflexivity. }
  split.
  - intros (_ & D & k & R & H). cbv zeta in *. split; [exact D|]. exists (Z.of_nat k). rewrite INR_IZR_INZ in *. assert (Hk : (0 <= Z.of_nat k < l - 4)%Z).
    { split; [lia|]. apply lt_IZR. rewrite minus_IZR. lra. }
    split; [exact Hk|]. rewrite <- K by exact Hk. exact H.
  - intros (D & k & Hk & H). split; [exact B|]. split; [exact D|]. exists (Z.to_nat k). cbv zeta. rewrite INR_IZR_INZ, Z2Nat.id by lia. rewrite K by exact Hk. split; [|exact H].
    destruct Hk as [_ Hk]. apply IZR_lt in Hk. rewrite minus_IZR in Hk. lra.
Qed.

(** *** Hidden obstacles *)
Definition two (a b : Z) : list Z := map (fun c => if ((c =? a) || (c =? b))%Z then 100%Z else 0%Z) (range_excl 0 900).
Lemma two_length a b : Z.of_nat (length (two a b)) = (30 * 30)%Z.
Proof. unfold two, range_excl, range_incl. rewrite !map_length, seq_length. reflexivity. Qed.
Lemma two_at a b c : (0 <= c < 900)%Z -> nth (Z.to_nat c) (two a b) 0%Z = if ((c =? a) || (c =? b))%Z then 100%Z else 0%Z.
Proof.
  intros C. unfold two, range_excl, range_incl. rewrite map_map. set (f := fun x => _). rewrite (nth_indep _ 0%Z (f O)) by (rewrite map_length, seq_length; lia).
  rewrite map_nth, seq_nth by lia. unfold f. replace (0 + Z.of_nat (0 + Z.to_nat c))%Z with c by lia. reflexivity.
Qed.
Lemma two_obstacle a b c : (0 <= c < 900)%Z -> nth (Z.to_nat c) (two a b) 0%Z = 100%Z -> c = a \/ c = b.
Proof. intros C. rewrite two_at by exact C. destruct (Z.eqb_spec c a); [auto|]. destruct (Z.eqb_spec c b); [auto|]. discriminate. Qed.
Definition hides_by (l b a : Z) : bool := negb (a =? b)%Z && existsb (fun k => hides_at 30 l b k =? a)%Z (range_excl 0 (l - 4)).
Lemma hides_by_ok l b a : (0 < l)%Z -> (0 <= b < 900)%Z -> ((2 * (b mod 30) - 30) * (2 * (b mod 30) - 30) + (2 * (b / 30) - 30) * (2 * (b / 30) - 30) = l * l)%Z ->
  (In b (occlusion_table 30 a) <-> hides_by l b a = true).
Proof.
  intros Ll B E. rewrite (rational_hides 30 l b a ltac:(lia) Ll B E). unfold hides_by. rewrite andb_true_iff, negb_true_iff, Z.eqb_neq, existsb_exists. split.
  - intros (D & k & K & H). split; [exact D|]. exists k. rewrite in_range_excl, Z.eqb_eq. auto.
  - intros (D & k & K & H). split; [exact D|]. exists k. rewrite in_range_excl, Z.eqb_eq in *. auto.
Qed.

(** With the default width of 30 cells: obstacles at 2 cells left of and below the centre (cell 403) and behind it (cell 342).  The second one is hidden and not
    shown, but hides a further cell (7) that no shown obstacle hides, because it has the smaller address ... *)
Theorem C70_only_shown_obstacles_hide_refuted : exists d, occlude (occlusion_table 30) 30 (two 403 342) = Ok d /\
  nth 342 d 0%Z = (-1)%Z /\ nth 7 d 0%Z = (-1)%Z /\ forall b, (0 <= b < 30 * 30)%Z -> nth (Z.to_nat b) d 0%Z = 100%Z -> ~ In 7%Z (occlusion_table 30 b).
Proof.
  destruct (C70_exact_shadows 30 (two 403 342) ltac:(lia) (two_length _ _)) as (d & sel & E & L & S & H). exists d. split; [exact E|].
  assert (S1 : sel 342%Z).
  { apply S. split; [split; [lia|rewrite two_at by lia; reflexivity]|]. intros b' Hl Hb'. apply S in Hb' as [[B V] _]. apply two_obstacle in V; lia. }
  assert (S2 : sel 403%Z).
  { apply S. split; [split; [lia|rewrite two_at by lia; reflexivity]|]. intros b' Hl Hb' I. apply S in Hb' as [[B V] _]. apply two_obstacle in V as [->| ->]; [lia| |lia].
    apply C70_obstacles_hide_what_is_behind_them in I as (_ & _ & _ & r & R & _ & C); [|lia]. unfold sight_y in C. change (342 / 30)%Z with 11%Z in C. change (403 / 30)%Z with 13%Z in C.
    assert (T : 0 <= r / far 30 403 <= 1).
    { split; [apply Rmult_le_pos; [lra|left; apply Rinv_0_lt_compat; lra]|]. apply (Rmult_le_reg_r (far 30 403)); [lra|]. unfold Rdiv. rewrite Rmult_assoc, Rinv_l by lra. lra. }
    lra. }
  assert (V342 : nth 342 d 0%Z = (-1)%Z).
  { destruct (H 342%Z ltac:(lia)) as [[_ V]|[V _]]; [exact V|]. exfalso. apply V. exists 403%Z. split; [exact S2|]. apply (hides_by_ok 10); [lia|lia|reflexivity|vm_compute; reflexivity]. }
  split; [exact V342|]. split.
  - destruct (H 7%Z ltac:(lia)) as [[_ V]|[V _]]; [exact V|]. exfalso. apply V. exists 342%Z. split; [exact S1|]. apply (hides_by_ok 34); [lia|lia|reflexivity|vm_compute; reflexivity].
  - intros b B V I. destruct (H b B) as [[_ W]|[_ W]]; [congruence|]. rewrite W in V. apply two_obstacle in V as [->| ->]; [| |lia].
    + apply (hides_by_ok 34) in I; [|lia|lia|reflexivity]. vm_compute in I. discriminate I.
    + change (Z.to_nat 342) with 342%nat in W. rewrite V342 in W. change 342%nat with (Z.to_nat 342) in W. rewrite two_at in W by lia. discriminate W.
Qed.
(** ... while in the opposite order it does not. *)
Theorem C70_order_of_addresses_matters : exists d, occlude (occlusion_table 30) 30 (two 545 603) = Ok d /\ nth 690 d 0%Z = 0%Z /\ In 690%Z (occlusion_table 30 603) /\ In 603%Z (occlusion_table 30 545).
Proof.
  destruct (C70_exact_shadows 30 (two 545 603) ltac:(lia) (two_length _ _)) as (d & sel & E & L & S & H). exists d. split; [exact E|].
  assert (I1 : In 690%Z (occlusion_table 30 603)) by (apply (hides_by_ok 34); [lia|lia|reflexivity|vm_compute; reflexivity]).
  assert (I2 : In 603%Z (occlusion_table 30 545)) by (apply (hides_by_ok 26); [lia|lia|reflexivity|vm_compute; reflexivity]).
  split; [|split; assumption]. assert (S1 : sel 545%Z).
  { apply S. split; [split; [lia|rewrite two_at by lia; reflexivity]|]. intros b' Hl Hb'. apply S in Hb' as [[B V] _]. apply two_obstacle in V; lia. }
  change 690%nat with (Z.to_nat 690). destruct (H 690%Z ltac:(lia)) as [[(b & B1 & B2) _]|[_ V]]; [exfalso|rewrite V, two_at by lia; reflexivity].
  apply S in B1 as [[B V] NB]. apply two_obstacle in V as [->| ->]; [| |lia].
  - apply (hides_by_ok 34) in B2; [|lia|lia|reflexivity]. vm_compute in B2. discriminate B2.
  - exact (NB 545%Z ltac:(lia) S1 I2).
Qed.

(** *** The hypotheses are met *)
(** The line of sight to cell 7 runs through the cell 3 to the left of and 4 below the centre, between the distances 4.3 and 4.5. *)
Example ex_hidden : In 7%Z (occlusion_table 30 342) /\ ~ In 7%Z (occlusion_table 30 403) /\ far 30 7 = 17.
Proof.
  split; [apply (hides_by_ok 34); [lia|lia|reflexivity|vm_compute; reflexivity]|]. split.
  - intros I. apply (hides_by_ok 34) in I; [|lia|lia|reflexivity]. vm_compute in I. discriminate I.
  - unfold far. change (7 mod 30)%Z with 7%Z. change (7 / 30)%Z with 0%Z. unfold Rsqr. replace ((7 - 30 / 2) * (7 - 30 / 2) + (0 - 30 / 2) * (0 - 30 / 2)) with (17 * 17) by lra. apply sqrt_square. lra.
Qed.
(** Straight to the left of the centre, the obstacle at distance 5 covers everything from distance 7 on. *)
Example ex_covered : let b := (15 * 30 + 2)%Z in let a := (15 * 30 + 10)%Z in far 30 b = 13 /\ forall r, 17 / 4 <= r <= 17 / 4 + 1 / 2 -> cell_has 30 a (sight_x 30 b r) (sight_y 30 b r).
Proof.
  cbv zeta. assert (F : far 30 (15 * 30 + 2) = 13).
  { unfold far. change ((15 * 30 + 2) mod 30)%Z with 2%Z. change ((15 * 30 + 2) / 30)%Z with 15%Z. unfold Rsqr. replace ((2 - 30 / 2) * (2 - 30 / 2) + (15 - 30 / 2) * (15 - 30 / 2)) with (13 * 13) by lra. apply sqrt_square. lra. }
  split; [exact F|]. intros r R. unfold cell_has, sight_x, sight_y. rewrite F. change ((15 * 30 + 2) mod 30)%Z with 2%Z. change ((15 * 30 + 2) / 30)%Z with 15%Z.
  change ((15 * 30 + 10) mod 30)%Z with 10%Z. change ((15 * 30 + 10) / 30)%Z with 15%Z. lra.
Qed.

Print Assumptions C70_obstacles_hide_what_is_behind_them.
Print Assumptions C70_obstacles_hide_all_they_cover.
Print Assumptions C70_exact_shadows.
Print Assumptions C70_free_sight_is_shown.
Print Assumptions C70_covered_cells_are_unknown.
Print Assumptions C70_local_map.
Print Assumptions C70_only_shown_obstacles_hide_refuted.
