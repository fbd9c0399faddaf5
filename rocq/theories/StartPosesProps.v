(** C63: the poses from which a path is searched. *)
From Coq Require Import Reals Lra Lia Psatz ZifyBool.
From Flocq Require Import Core.
From Verif Require Import Common CyclicVec CyclicVecSpec CyclicVecProofs CostAlg DistMap Overlay SearchAvail GridMetric GridMetricProps
  Path2D Path2DProps PathGeom PathGeomProps StartPredict StartPredictProps StartPoses.
Local Open Scope R_scope.

(** * Specification *)
(** A cell at least [m] cells away from the border of the map. *)
Definition in_margin (M : pmap) (m : Z) (c : cell3) : Prop :=
  (m <= fst (fst c) < pm_w M - m /\ m <= snd (fst c) < pm_h M - m /\ 0 <= snd c < pm_a M)%Z.
(** Two cells within the tolerances; orientations are compared up to full turns. *)
Definition close_to (A tl ta : Z) (a b : cell3) : Prop :=
  ((fst (fst a) - fst (fst b)) ^ 2 + (snd (fst a) - snd (fst b)) ^ 2 <= tl ^ 2 /\ exists k, Z.abs (snd a - snd b + k * A) <= ta)%Z.
(** Offset of a position from the centre of a cell, in cells. *)
Definition off_x (M : pmap) (p : pose2) (c : cell3) : R := (p_x p - (mi_ox (pm_info M) + (IZR (fst (fst c)) + 1/2) * mi_res (pm_info M))) / mi_res (pm_info M).
Definition off_y (M : pmap) (p : pose2) (c : cell3) : R := (p_y p - (mi_oy (pm_info M) + (IZR (snd (fst c)) + 1/2) * mi_res (pm_info M))) / mi_res (pm_info M).
(** The centre is at most one cell away; of the two cells in line that are exactly one cell away from a position on a centre line only the upper one counts. *)
Definition one_cell_away (M : pmap) (p : pose2) (c : cell3) : Prop :=
  off_x M p c ^ 2 + off_y M p c ^ 2 <= 1 /\ off_x M p c <> 1 /\ off_y M p c <> 1.
(** Free cells from which the robot in the cell [s] can start, and what it costs. *)
Definition startable (S : scfg) (M : pmap) (cm : cell3 -> Z) (robot : pose2) (s c : cell3) : Prop :=
  if antialias S then in_margin M (margin S) c /\ snd c = snd s /\ one_cell_away M robot c /\ (cm c <= 99)%Z
  else c = s /\ (cm s < 100)%Z.
Definition start_cost (S : scfg) (M : pmap) (cm : cell3 -> Z) (robot : pose2) (c : cell3) : R :=
  if antialias S then ec0 S * sqrt (off_x M robot c ^ 2 + off_y M robot c ^ 2) + IZR (cm c) * weight S / 100 else 0.

(** * Finishing *)
Theorem C63_finishing_check A tl ta s e : (0 < A)%Z -> (2 * ta + 1 <> A)%Z ->
  exists b, isPathFinishing A tl ta s e = Ok b /\ (b = true <-> close_to A tl ta s e).
Proof.
  intros HA HO. unfold isPathFinishing, close_to. destruct (cycleElement_spec (snd s - snd e) A HA) as (t & -> & [k K] & R).
  cbn [bind]. eexists. split; [reflexivity|]. unfold signed_range in R.
  rewrite Bool.andb_true_iff, !Z.leb_le. rewrite !Z.pow_2_r. split; intros [A1 A2]; (split; [exact A1|]).
  - exists k. rewrite <- K. exact A2.
  - destruct A2 as [k' A2]. replace (snd s - snd e + k' * A)%Z with (t + (k' - k) * A)%Z in A2 by lia.
    set (j := (k' - k)%Z) in *. clearbody j. clear K A1.
    assert (2 * t + 1 <= A /\ - A - 1 <= 2 * t)%Z as [T1 T2] by lia. clear R.
    destruct (Z.eq_dec j 0) as [J|J]; [rewrite J in A2; lia|].
    assert (A <= Z.abs (j * A))%Z by nia. lia.
Qed.
(** With an odd number of orientations and the largest tolerance that is not a full turn, one of the two extreme differences is missed. *)
Theorem C63_finishing_check_on_odd_angles_refuted : ~ (forall A tl ta s e, (0 < A)%Z ->
  exists b, isPathFinishing A tl ta s e = Ok b /\ (b = true <-> close_to A tl ta s e)).
Proof.
  intros H. destruct (H 5 0 2 ((0, 0), 2) ((0, 0), 0))%Z as (b & E & B); [lia|]. vm_compute in E. injection E as <-.
  assert (false = true); [|discriminate]. apply B. split; [cbn; lia|exists 0%Z; cbn; lia].
Qed.
Example C63_finishing_example : close_to 16 2 1 ((10, 10), 0)%Z ((9, 11), 15)%Z /\ isPathFinishing 16 2 1 ((10, 10), 0)%Z ((9, 11), 15)%Z = Ok true.
Proof. split; [split; [cbn; lia|exists 1%Z; cbn; lia]|reflexivity]. Qed.

(** * Candidates *)
Section Starts.
  Variables (S : scfg) (C : pcfg) (M : pmap) (cm : cell3 -> Z) (search_pos : cell3 -> outcome (option cell3)).
  Variables (robot goal : pose2) (previous : list pose2).
  Hypothesis Hr : 0 < mi_res (pm_info M).
  Hypothesis Ha : 0 < mi_ang (pm_info M).
  Hypothesis HA : (0 < pm_a M)%Z.
  Hypothesis Hm : (0 <= margin S)%Z.
  Hypothesis He : 0 <= ec0 S.
  Hypothesis Ht : (2 * tol_a S + 1 <> pm_a M)%Z.

  Lemma margin_iff c : valid_start S M c = true <-> in_margin M (margin S) c.
  Proof. unfold valid_start, validate3, in_margin. lia. Qed.
  Lemma margin_inside c : in_margin M (margin S) c -> cell_inside M c = true.
  Proof. unfold in_margin, cell_inside. lia. Qed.

  Let gx := (p_x robot - mi_ox (pm_info M)) / mi_res (pm_info M).
  Let gy := (p_y robot - mi_oy (pm_info M)) / mi_res (pm_info M).
  Lemma off_x_cells c : off_x M robot c = gx - (IZR (fst (fst c)) + 1/2).
  Proof. unfold off_x, gx. field. lra. Qed.
  Lemma off_y_cells c : off_y M robot c = gy - (IZR (snd (fst c)) + 1/2).
  Proof. unfold off_y, gy. field. lra. Qed.

  Definition shifted (s : cell3) (d : Z * Z) : cell3 := ((fst (fst s) + fst d, snd (fst s) + snd d), snd s)%Z.
  Definition accepted (s : cell3) (d : Z * Z) : Prop :=
    in_margin M (margin S) (shifted s d) /\ off_x M robot (shifted s d) ^ 2 + off_y M robot (shifted s d) ^ 2 <= 1 /\ (cm (shifted s d) <= 99)%Z.
  Lemma try_cell_spec s acc d : antialias S = true ->
    (accepted s d /\ try_cell S M cm gx gy s acc d = Ok (acc ++ [(shifted s d, start_cost S M cm robot (shifted s d))])) \/
    (~ accepted s d /\ try_cell S M cm gx gy s acc d = Ok acc).
  Proof.
    intros Hanti. unfold try_cell, accepted. fold (shifted s d). set (p := shifted s d).
    destruct (valid_start S M p) eqn:V; cbn [negb].
    2:{ right. split; [|reflexivity]. intros [V' _]. apply margin_iff in V'. congruence. }
    apply margin_iff in V. rewrite off_x_cells, off_y_cells.
    set (dx := gx - _). set (dy := gy - _).
    destruct (Rlt_dec 1 (dx * dx + dy * dy)) as [L|L]; [right; split; [intros (_ & N & _); cbn in N; lra|reflexivity]|].
    unfold read_cm. rewrite (margin_inside _ V). cbn [bind].
    destruct (Z.ltb_spec 99 (cm p)) as [Z|Z]; [right; split; [intros (_ & _ & N); lia|reflexivity]|].
    left. split; [split; [exact V|split; [cbn; lra|exact Z]]|]. do 3 f_equal. f_equal.
    unfold start_cost. rewrite Hanti, off_x_cells, off_y_cells. fold dx dy. f_equal.
    replace (- dx * ec0 S * (- dx * ec0 S) + - dy * ec0 S * (- dy * ec0 S)) with ((ec0 S)² * (dx ^ 2 + dy ^ 2)) by (unfold Rsqr; ring).
    rewrite sqrt_mult; [|apply Rle_0_sqr|nra]. rewrite sqrt_Rsqr by exact He. reflexivity.
  Qed.
  Lemma try_cells_spec s ds : antialias S = true -> forall acc,
    exists l, foldM (try_cell S M cm gx gy s) ds acc = Ok (acc ++ l) /\
      (forall c k, In (c, k) l <-> exists d, In d ds /\ accepted s d /\ c = shifted s d /\ k = start_cost S M cm robot c).
  Proof.
    intros Hanti. induction ds as [|d ds IH]; intros acc.
    - exists []. rewrite app_nil_r. split; [reflexivity|]. intros c k. split; [intros []|intros (d & [] & _)].
    - cbn [foldM]. destruct (try_cell_spec s acc d Hanti) as [[A E]|[A E]]; rewrite E; cbn [bind].
      + destruct (IH (acc ++ [(shifted s d, start_cost S M cm robot (shifted s d))])) as (l & -> & Hl).
        eexists. split; [rewrite <- app_assoc; reflexivity|]. intros c k. cbn [app]. split.
        * intros [I|I]; [injection I as <- <-; exists d; repeat split; try apply A; left; reflexivity|].
          apply Hl in I as (d' & I & R). exists d'. split; [right; exact I|exact R].
        * intros (d' & [<-|I] & A' & -> & ->); [left; reflexivity|]. right. apply Hl. exists d'. auto.
      + destruct (IH acc) as (l & -> & Hl). exists l. split; [reflexivity|]. intros c k. rewrite Hl. split.
        * intros (d' & I & R). exists d'. split; [right; exact I|exact R].
        * intros (d' & [<-|I] & A' & R); [contradiction|]. exists d'. auto.
  Qed.
  Lemma side_spec (g : R) (c x : Z) : IZR c <= g < IZR c + 1 ->
    ((x = c \/ x = c + side g c)%Z <-> (g - (IZR x + 1/2)) ^ 2 <= 1 /\ g - (IZR x + 1/2) <> 1).
  Proof.
    intros G. unfold side. split.
    - intros [->|H]; [split; nra|]. destruct (Rlt_dec (g - IZR c) (1/2)); rewrite H, plus_IZR; split; nra.
    - intros [H1 H2]. assert (-1 <= g - (IZR x + 1/2) < 1) as [B1 B2] by nra.
      destruct (Rlt_dec (g - IZR c) (1/2)) as [L|L].
      + assert (IZR c - 2 < IZR x < IZR c + 1) as [X1 X2] by lra.
        replace (IZR c - 2) with (IZR (c - 2)) in X1 by (rewrite minus_IZR; reflexivity). replace (IZR c + 1) with (IZR (c + 1)) in X2 by (rewrite plus_IZR; reflexivity).
        apply lt_IZR in X1, X2. lia.
      + assert (IZR c - 1 < IZR x < IZR c + 2) as [X1 X2] by lra.
        replace (IZR c - 1) with (IZR (c - 1)) in X1 by (rewrite minus_IZR; reflexivity). replace (IZR c + 2) with (IZR (c + 2)) in X2 by (rewrite plus_IZR; reflexivity).
        apply lt_IZR in X1, X2. lia.
  Qed.
  Lemma in_cell_units (s : cell3) : in_cell (pm_info M) (fst (fst s)) (snd (fst s)) (p_x robot) (p_y robot) ->
    IZR (fst (fst s)) <= gx < IZR (fst (fst s)) + 1 /\ IZR (snd (fst s)) <= gy < IZR (snd (fst s)) + 1.
  Proof.
    intros [X Y]. unfold gx, gy. assert (K : forall g o (n : Z), o + IZR n * mi_res (pm_info M) <= g < o + (IZR n + 1) * mi_res (pm_info M) ->
      IZR n <= (g - o) / mi_res (pm_info M) < IZR n + 1).
    { intros g o n [A B]. assert (E : g - o = (g - o) / mi_res (pm_info M) * mi_res (pm_info M)) by (field; lra). split.
      - apply Rmult_le_reg_r with (mi_res (pm_info M)); lra.
      - apply Rmult_lt_reg_r with (mi_res (pm_info M)); lra. }
    split; apply K; assumption.
  Qed.
  Lemma candidates_spec s : pose_in_cell M robot s -> in_margin M (margin S) s ->
    exists l, candidates S M cm gx gy s = Ok l /\
      forall c k, In (c, k) l <-> startable S M cm robot s c /\ k = start_cost S M cm robot c.
  Proof.
    intros (P & _) IM. apply in_cell_units in P as [PX PY]. unfold candidates, startable. destruct (antialias S) eqn:Hanti.
    - destruct (try_cells_spec s [(0, 0); (0, side gy (snd (fst s))); (side gx (fst (fst s)), 0); (side gx (fst (fst s)), side gy (snd (fst s)))]%Z Hanti [])
        as (l & E & Hl). cbv zeta. rewrite E. exists l. split; [reflexivity|]. intros c k. rewrite Hl. split.
      + intros (d & D & (A1 & A2 & A3) & -> & K). split; [|exact K]. split; [exact A1|]. split; [reflexivity|]. split; [|exact A3].
        split; [exact A2|]. rewrite off_x_cells, off_y_cells.
        assert (fst d = 0 \/ fst d = side gx (fst (fst s)))%Z as DX by (repeat destruct D as [<-|D]; try destruct D; cbn [fst]; auto).
        assert (snd d = 0 \/ snd d = side gy (snd (fst s)))%Z as DY by (repeat destruct D as [<-|D]; try destruct D; cbn [snd]; auto).
        split; [apply (side_spec gx (fst (fst s)))|apply (side_spec gy (snd (fst s)))]; try assumption; unfold shifted; cbn [fst snd]; lia.
      + intros ((IC & T & (N1 & N2 & N3) & F) & K). rewrite off_x_cells, off_y_cells in *.
        assert (DX : (fst (fst c) = fst (fst s) \/ fst (fst c) = fst (fst s) + side gx (fst (fst s)))%Z).
        { apply side_spec; [exact PX|]. split; [|exact N2]. pose proof (pow2_ge_0 (gy - (IZR (snd (fst c)) + 1 / 2))). lra. }
        assert (DY : (snd (fst c) = snd (fst s) \/ snd (fst c) = snd (fst s) + side gy (snd (fst s)))%Z).
        { apply side_spec; [exact PY|]. split; [|exact N3]. pose proof (pow2_ge_0 (gx - (IZR (fst (fst c)) + 1 / 2))). lra. }
        exists (fst (fst c) - fst (fst s), snd (fst c) - snd (fst s))%Z.
        assert (E' : shifted s (fst (fst c) - fst (fst s), snd (fst c) - snd (fst s))%Z = c).
        { unfold shifted. destruct c as [[cx cy] ct]. cbn [fst snd] in *. rewrite <- T. f_equal. f_equal; lia. }
        split.
        * set (sx := side gx _) in *. set (sy := side gy _) in *. clearbody sx sy.
          destruct DX as [DX|DX]; destruct DY as [DY|DY]; rewrite DX, DY; [left|right; left|right; right; left|right; right; right; left]; f_equal; lia.
        * unfold accepted. rewrite E'. split; [|auto]. split; [exact IC|]. rewrite off_x_cells, off_y_cells. auto.
    - unfold read_cm. rewrite (margin_inside s IM). cbn [bind]. eexists. split; [reflexivity|]. unfold start_cost. rewrite Hanti.
      intros c k. destruct (Z.ltb_spec (cm s) 100) as [L|L]; cbn [In].
      + split; [intros [I|[]]; injection I as <- <-; auto|intros [[-> _] ->]; left; reflexivity].
      + split; [intros []|intros [[_ ?] _]; lia].
  Qed.
  Lemma any_finishing_spec l e : exists b, any_finishing S M l e = Ok b /\
    (b = true <-> exists c k, In (c, k) l /\ close_to (pm_a M) (tol_l S) (tol_a S) c e).
  Proof.
    induction l as [|[c k] l IH]; cbn [any_finishing].
    - exists false. split; [reflexivity|]. split; [discriminate|intros (? & ? & [] & _)].
    - cbn [fst]. destruct (C63_finishing_check (pm_a M) (tol_l S) (tol_a S) c e HA Ht) as (b & -> & B). cbn [bind]. destruct b.
      + exists true. split; [reflexivity|]. split; [|reflexivity]. intros _. exists c, k. split; [left; reflexivity|apply B; reflexivity].
      + destruct IH as (b & -> & IH). exists b. split; [reflexivity|]. rewrite IH. split.
        * intros (c' & k' & I & D). exists c', k'. split; [right; exact I|exact D].
        * intros (c' & k' & [I|I] & D); [injection I as <- <-; apply B in D; discriminate|]. exists c', k'. auto.
  Qed.

  Lemma start_poses_at st l s e : pose_cell M robot = Ok s -> pose_cell M goal = Ok e -> buildStartPoses S C M cm search_pos robot goal previous = Ok (st, l) ->
      let close c := close_to (pm_a M) (tol_l S) (tol_a S) c e in
      let continues := keep S = true /\ previous <> [] in
      (* next to the border of the map *)
      (~ in_margin M (margin S) s /\ st = START_OCCUPIED /\ l = []) \/
      (in_margin M (margin S) s /\
       ((* from the previous path *)
        (continues /\ process C M cm robot previous = Ok None /\ st = START_OCCUPIED /\ l = []) \/
        (continues /\ exists r, process C M cm robot previous = Ok (Some r) /\ l = [(st_cell r, 0)] /\
           (close s /\ st = FINISHING \/ ~ close s /\ st = NORMAL)) \/
        (* from the cells around the robot *)
        (~ continues /\ (exists c, startable S M cm robot s c) /\
           (forall c k, In (c, k) l <-> startable S M cm robot s c /\ k = start_cost S M cm robot c) /\
           ((exists c, startable S M cm robot s c /\ close c) /\ st = FINISHING \/
            (forall c, startable S M cm robot s c -> ~ close c) /\ st = NORMAL)) \/
        (* from the nearest free cell *)
        (~ continues /\ (forall c, ~ startable S M cm robot s c) /\ search_pos s = Ok None /\ st = START_OCCUPIED /\ l = []) \/
        (~ continues /\ (forall c, ~ startable S M cm robot s c) /\ exists q, search_pos s = Ok (Some q) /\ l = [(q, 0)] /\
           (close q /\ st = FINISHING \/ ~ close q /\ st = NORMAL)))).
  Proof.
    unfold buildStartPoses. cbv beta iota delta [metric2GridF exact]. fold gx gy. intros Es Ee E. rewrite Es, Ee in E. cbn [bind] in E.
    pose proof (pose_cell_ok M robot s Hr Ha HA Es) as Ps. pose proof (pose_cell_ok M goal e Hr Ha HA Ee) as Pe. cbv zeta.
    destruct (valid_start S M s) eqn:V; cbn [negb] in E.
    2:{ left. injection E as <- <-. split; [|auto]. intros V'. apply margin_iff in V'. congruence. }
    apply margin_iff in V. right. split; [exact V|].
    destruct (keep S && negb (match previous with [] => true | _ => false end))%bool eqn:Kp.
    - apply Bool.andb_true_iff in Kp as [K1 K2]. assert (K3 : previous <> []) by (destruct previous; [discriminate K2|discriminate]).
      destruct (process C M cm robot previous) as [[r|]|] eqn:Ep; [| |discriminate E]; cbn [bind] in E.
      + destruct (C63_finishing_check (pm_a M) (tol_l S) (tol_a S) s e HA Ht) as (b & Eb & B). rewrite Eb in E. cbn [bind] in E. injection E as <- <-.
        right. left. split; [auto|]. exists r. split; [reflexivity|]. split; [reflexivity|].
        destruct b; [left; split; [apply B; reflexivity|reflexivity]|right; split; [|reflexivity]]. intros X. apply B in X. discriminate.
      + injection E as <- <-. left. auto.
    - assert (NK : ~ (keep S = true /\ previous <> [])).
      { intros [K1 K2]. rewrite K1 in Kp. destruct previous; [congruence|discriminate Kp]. }
      destruct (candidates_spec s Ps V) as (cs & Ec & Hc). rewrite Ec in E. cbn [bind] in E.
      destruct cs as [|c0 cs].
      + assert (NS : forall c, ~ startable S M cm robot s c).
        { intros c Sc. assert (I : In (c, start_cost S M cm robot c) []) by (apply Hc; auto). destruct I. }
        destruct (search_pos s) as [[q|]|] eqn:Eq; [| |discriminate E]; cbn [bind] in E.
        * destruct (any_finishing_spec [(q, 0)] e) as (b & Eb & B). rewrite Eb in E. cbn [bind] in E. injection E as <- <-.
          right. right. right. right. split; [exact NK|]. split; [exact NS|]. exists q. split; [reflexivity|]. split; [reflexivity|].
          destruct b; [left|right]; (split; [|reflexivity]).
          -- destruct B as [B _]. destruct (B eq_refl) as (c & k & [I|[]] & D). injection I as <- <-. exact D.
          -- intros D. assert (false = true); [|discriminate]. apply B. exists q, 0. split; [left; reflexivity|exact D].
        * injection E as <- <-. right. right. right. left. auto.
      + destruct (any_finishing_spec (c0 :: cs) e) as (b & Eb & B). rewrite Eb in E. cbn [bind] in E. injection E as <- <-.
        right. right. left. split; [exact NK|]. split.
        { destruct c0 as [c k]. exists c. destruct (proj1 (Hc c k) (or_introl eq_refl)) as [X _]. exact X. }
        split; [exact Hc|]. destruct b; [left|right]; (split; [|reflexivity]).
        * destruct B as [B _]. destruct (B eq_refl) as (c & k & I & D). exists c. apply Hc in I as [I _]. auto.
        * intros c I D. assert (false = true); [|discriminate]. apply B. exists c, (start_cost S M cm robot c). split; [apply Hc; auto|exact D].
  Qed.
  (** C63, main theorem. *)
  Theorem C63_start_poses st l : buildStartPoses S C M cm search_pos robot goal previous = Ok (st, l) ->
    exists s e, pose_in_cell M robot s /\ pose_in_cell M goal e /\
      let close c := close_to (pm_a M) (tol_l S) (tol_a S) c e in
      let continues := keep S = true /\ previous <> [] in
      (* next to the border of the map *)
      (~ in_margin M (margin S) s /\ st = START_OCCUPIED /\ l = []) \/
      (in_margin M (margin S) s /\
       ((* from the previous path *)
        (continues /\ process C M cm robot previous = Ok None /\ st = START_OCCUPIED /\ l = []) \/
        (continues /\ exists r, process C M cm robot previous = Ok (Some r) /\ l = [(st_cell r, 0)] /\
           (close s /\ st = FINISHING \/ ~ close s /\ st = NORMAL)) \/
        (* from the cells around the robot *)
        (~ continues /\ (exists c, startable S M cm robot s c) /\
           (forall c k, In (c, k) l <-> startable S M cm robot s c /\ k = start_cost S M cm robot c) /\
           ((exists c, startable S M cm robot s c /\ close c) /\ st = FINISHING \/
            (forall c, startable S M cm robot s c -> ~ close c) /\ st = NORMAL)) \/
        (* from the nearest free cell *)
        (~ continues /\ (forall c, ~ startable S M cm robot s c) /\ search_pos s = Ok None /\ st = START_OCCUPIED /\ l = []) \/
        (~ continues /\ (forall c, ~ startable S M cm robot s c) /\ exists q, search_pos s = Ok (Some q) /\ l = [(q, 0)] /\
           (close q /\ st = FINISHING \/ ~ close q /\ st = NORMAL)))).
  Proof.
    intros E. assert (X : exists s e, pose_cell M robot = Ok s /\ pose_cell M goal = Ok e).
    { unfold buildStartPoses in E. destruct (metric2GridF _ _ _ _ _ _) as [[? ?] ?]. destruct (pose_cell M robot) as [s|]; [|discriminate E]. cbn [bind] in E.
      destruct (pose_cell M goal) as [e|]; [|discriminate E]. eauto. }
    destruct X as (s & e & Es & Ee). exists s, e. split; [exact (pose_cell_ok M robot s Hr Ha HA Es)|]. split; [exact (pose_cell_ok M goal e Hr Ha HA Ee)|].
    apply start_poses_at; assumption.
  Qed.

  (** C63: a robot in a free cell inside the margin is never relocated. *)
  Theorem C63_free_own_cell_is_a_start s : pose_in_cell M robot s -> in_margin M (margin S) s -> (cm s < 100)%Z ->
    startable S M cm robot s s.
  Proof.
    intros (P & _) I F. apply in_cell_units in P as [PX PY]. unfold startable. destruct (antialias S); [|auto].
    split; [exact I|]. split; [reflexivity|]. split; [|lia]. unfold one_cell_away. rewrite off_x_cells, off_y_cells. split; [nra|]. split; lra.
  Qed.
  (** C63: no start is in an occupied cell, unless the previous path is continued (C62) *)
  Theorem C63_starts_are_free st l : buildStartPoses S C M cm search_pos robot goal previous = Ok (st, l) ->
    keep S = false \/ previous = [] ->
    (forall s q, search_pos s = Ok (Some q) -> (cm q < 100)%Z) ->
    forall c k, In (c, k) l -> (cm c < 100)%Z.
  Proof.
    intros E NK Hq c k I. assert (~ (keep S = true /\ previous <> [])) as NC by (intros [? ?]; destruct NK; congruence).
    destruct (C63_start_poses st l E) as (s & e & _ & _ & [(_ & _ & ->)|(_ & [[? _]|[[? _]|[(_ & _ & Hl & _)|[(_ & _ & _ & _ & ->)|(_ & _ & q & Eq & -> & _)]]]])]); try contradiction.
    - apply Hl in I as [I _]. unfold startable in I. destruct (antialias S); [|destruct I as [-> ?]; assumption]. destruct I as (_ & _ & _ & ?). lia.
    - destruct I as [I|[]]. injection I as <- <-. eapply Hq. exact Eq.
  Qed.
  (** C63: the start poses are computed whenever robot and goal are in range of the cell coordinates. *)
  Theorem C63_defined sx sy ex ey : int32 sx -> int32 sy -> int32 ex -> int32 ey ->
    in_cell (pm_info M) sx sy (p_x robot) (p_y robot) -> in_cell (pm_info M) ex ey (p_x goal) (p_y goal) ->
    (keep S = false \/ previous = [] \/ exists r, process C M cm robot previous = Ok r) -> (forall s, exists q, search_pos s = Ok q) ->
    exists r, buildStartPoses S C M cm search_pos robot goal previous = Ok r.
  Proof.
    intros I1 I2 I3 I4 P1 P2 Hp Hs. unfold buildStartPoses. cbv beta iota delta [metric2GridF exact]. fold gx gy.
    assert (exists s, pose_cell M robot = Ok s) as [s E1] by (destruct (pose_cell_def M robot ((sx, sy), 0)%Z Hr HA I1 I2 P1) as (t & E1 & T1); eauto).
    assert (exists e, pose_cell M goal = Ok e) as [e E2] by (destruct (pose_cell_def M goal ((ex, ey), 0)%Z Hr HA I3 I4 P2) as (t & E2 & T2); eauto).
    rewrite E1, E2. cbn [bind]. pose proof (pose_cell_ok M robot _ Hr Ha HA E1) as Ps.
    destruct (valid_start S M s) eqn:V; cbn [negb]; [|eexists; reflexivity]. apply margin_iff in V.
    destruct (keep S && negb (match previous with [] => true | _ => false end))%bool eqn:Kp.
    - apply Bool.andb_true_iff in Kp as [K1 K2]. assert (exists r, process C M cm robot previous = Ok r) as [[r|] ->].
      { destruct Hp as [?|[->|?]]; [congruence|discriminate K2|assumption]. }
      + cbn [bind]. destruct (C63_finishing_check (pm_a M) (tol_l S) (tol_a S) s e HA Ht) as (b & -> & _). cbn [bind]. eexists. reflexivity.
      + cbn [bind]. eexists. reflexivity.
    - destruct (candidates_spec _ Ps V) as (cs & -> & _). cbn [bind]. destruct cs as [|c cs].
      + destruct (Hs s) as [[q|] ->]; cbn [bind]; [|eexists; reflexivity].
        destruct (any_finishing_spec [(q, 0)] e) as (b & -> & _). cbn [bind]. eexists. reflexivity.
      + destruct (any_finishing_spec (c :: cs) e) as (b & -> & _). cbn [bind]. eexists. reflexivity.
  Qed.
End Starts.

(** * Examples *)
Definition scfg_ex (k : bool) : scfg := SCfg k true 0 1 100 1 0.
Lemma heading_ex p c : p_yaw p = 0 -> pose_in_cell map_ex p c -> snd c = 0%Z.
Proof.
  intros Y (_ & R & k & H). unfold in_sector in H. rewrite Y in H. cbn [map_ex pm_info pm_a mi_ang] in *. pose proof PI_RGT_0 as P.
  apply Rabs_le_inv in H. set (n := (snd c + k * 4)%Z) in *.
  assert (A : -1 < IZR n) by nra. assert (B : IZR n < 1) by nra. apply lt_IZR in A, B. lia.
Qed.
(** A robot in the upper right quarter of a cell: the free ones of the four cells around it are starts. *)
Definition wall_ex (c : cell3) : Z := if (fst (fst c) =? 2)%Z then 100%Z else 0%Z.
Definition robot_ex : pose2 := mkP2 (7/4) (7/4) 0 None.
Lemma startable_ex c : startable (scfg_ex false) map_ex wall_ex robot_ex ((1, 1), 0)%Z c <-> c = ((1, 1), 0)%Z \/ c = ((1, 2), 0)%Z.
Proof.
  unfold startable, one_cell_away. cbn [scfg_ex antialias margin]. rewrite off_x_cells, off_y_cells by (cbn; lra).
  cbn [robot_ex map_ex pm_info mi_res mi_ox mi_oy p_x p_y]. destruct c as [[x y] t]. unfold in_margin, wall_ex. cbn [map_ex pm_w pm_h pm_a fst snd]. split.
  - intros (I & -> & (N & NX & NY) & F). replace ((7/4 - 0) / 1) with (7/4) in * by field.
    assert (B : forall a b, a ^ 2 + b ^ 2 <= 1 -> -1 <= a <= 1 /\ -1 <= b <= 1) by (intros a b AB; split; split; nra).
    apply B in N as [BX BY]. assert (X1 : 0 < IZR x) by lra. assert (X2 : IZR x < 3) by lra. assert (Y1 : 0 < IZR y) by lra. assert (Y2 : IZR y < 3) by lra.
    apply lt_IZR in X1, X2, Y1, Y2.
    assert (x = 1%Z) as -> by (destruct (Z.eqb_spec x 2); lia). assert (y = 1 \/ y = 2)%Z as [->| ->] by lia; auto.
  - intros [H|H]; injection H as -> -> ->; cbn [Z.eqb Pos.eqb]; repeat split; try lia; lra.
Qed.
Example C63_example : exists l, buildStartPoses (scfg_ex false) cfg_ex map_ex wall_ex (fun _ => Ok None) robot_ex (pose_ex (1/2)) [] = Ok (NORMAL, l) /\
  forall c, In c (map fst l) <-> c = ((1, 1), 0)%Z \/ c = ((1, 2), 0)%Z.
Proof.
  destruct ex_pos as (P1 & P2 & P3). assert (Pt : (2 * tol_a (scfg_ex false) + 1 <> pm_a map_ex)%Z) by (cbn; lia).
  assert (Ps : in_cell (pm_info map_ex) 1 1 (p_x robot_ex) (p_y robot_ex)) by (unfold in_cell; cbn; lra).
  assert (Pg : in_cell (pm_info map_ex) 0 0 (p_x (pose_ex (1/2))) (p_y (pose_ex (1/2)))) by (unfold in_cell; cbn; lra).
  destruct (C63_defined (scfg_ex false) cfg_ex map_ex wall_ex (fun _ => Ok None) robot_ex (pose_ex (1/2)) [] P1 P2 P3 ltac:(cbn; lia) ltac:(cbn; lra) Pt 1 1 0 0)
    as [[st l] E]; try assumption; try (unfold int32; lia).
  { left. reflexivity. }
  { intros. eexists. reflexivity. }
  destruct (C63_start_poses (scfg_ex false) _ _ _ _ _ _ _ P1 P2 P3 ltac:(cbn; lia) ltac:(cbn; lra) Pt _ _ E) as (s & e & S1 & S2 & H). cbv zeta in H.
  assert (s = ((1, 1), 0)%Z) as ->.
  { pose proof (heading_ex robot_ex s eq_refl S1) as T. destruct S1 as [S1 _]. destruct s as [[x y] t]. cbn [fst snd] in *.
    destruct (C18_cells_are_disjoint _ _ _ _ _ _ _ P1 S1 Ps) as [-> ->]. rewrite T. reflexivity. }
  assert (e = ((0, 0), 0)%Z) as ->.
  { pose proof (heading_ex (pose_ex (1/2)) e eq_refl S2) as T. destruct S2 as [S2 _]. destruct e as [[x y] t]. cbn [fst snd] in *.
    destruct (C18_cells_are_disjoint _ _ _ _ _ _ _ P1 S2 Pg) as [-> ->]. rewrite T. reflexivity. }
  assert (Q : startable (scfg_ex false) map_ex wall_ex robot_ex (1, 1, 0)%Z (1, 1, 0)%Z) by (apply startable_ex; auto).
  destruct H as [(N & _)|(_ & [[[? _] _]|[[[? _] _]|[(_ & _ & Hl & Hs)|[(_ & N & _)|(_ & N & _)]]]])]; try discriminate.
  - exfalso. apply N. unfold in_margin. cbn. lia.
  - exists l. destruct Hs as [[(c & Sc & Cl & _) _]|[_ ->]].
    + exfalso. apply startable_ex in Sc as [->| ->]; cbn in Cl; lia.
    + split; [exact E|]. intros c. rewrite <- startable_ex, in_map_iff. split.
      * intros ([c' k] & <- & I). apply Hl in I as [I _]. exact I.
      * intros Sc. exists (c, start_cost (scfg_ex false) map_ex wall_ex robot_ex c). split; [reflexivity|apply Hl; auto].
  - destruct (N _ Q).
  - destruct (N _ Q).
Qed.
(** Finding: when the previous path cannot be continued the start is reported as occupied, although the robot is in a free cell. *)
Theorem C63_occupied_start_is_occupied_refuted :
  ~ (forall S C M cm search_pos robot goal previous s, 0 < mi_res (pm_info M) -> 0 < mi_ang (pm_info M) -> (0 < pm_a M)%Z ->
       buildStartPoses S C M cm search_pos robot goal previous = Ok (START_OCCUPIED, []) ->
       pose_in_cell M robot s -> in_margin M (margin S) s -> (cm s >= 100)%Z).
Proof.
  intros H. destruct ex_pos as (P1 & P2 & P3). assert (Pt : (2 * tol_a (scfg_ex true) + 1 <> pm_a map_ex)%Z) by (cbn; lia).
  pose proof C62_far_example as F. set (far := mkP2 (1/4) 3 0 None) in *.
  assert (Ps : in_cell (pm_info map_ex) 0 3 (p_x far) (p_y far)) by (unfold in_cell; cbn; lra).
  destruct (C63_defined (scfg_ex true) cfg_ex map_ex (fun _ => 0%Z) (fun _ => Ok None) far far [off_ex] P1 P2 P3 ltac:(cbn; lia) ltac:(cbn; lra) Pt 0 3 0 3)
    as [[st l] E]; try assumption; try (unfold int32; lia).
  { right. right. eexists. exact F. }
  { intros. eexists. reflexivity. }
  destruct (C63_start_poses (scfg_ex true) _ _ _ _ _ _ _ P1 P2 P3 ltac:(cbn; lia) ltac:(cbn; lra) Pt _ _ E) as (s & e & S1 & _ & K). cbv zeta in K.
  assert (I : in_margin map_ex 0 s).
  { pose proof S1 as (S1' & T & _). destruct s as [[x y] t]. cbn [fst snd] in *. destruct (C18_cells_are_disjoint _ _ _ _ _ _ _ P1 S1' Ps) as [-> ->].
    unfold in_margin. cbn in *. lia. }
  assert (CC : keep (scfg_ex true) = true /\ [off_ex] <> []) by (split; [reflexivity|discriminate]).
  destruct K as [(N & _)|(_ & [(_ & _ & -> & ->)|[(_ & r & R & _)|[(N & _)|[(N & _)|(N & _)]]]])]; try contradiction.
  - specialize (H _ _ _ _ _ _ _ _ s P1 P2 P3 E S1 I). cbn in H. lia.
  - rewrite F in R. discriminate R.
Qed.

Print Assumptions C63_start_poses.
Print Assumptions C63_starts_are_free.
Print Assumptions C63_defined.
Print Assumptions C63_finishing_check.
