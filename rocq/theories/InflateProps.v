(** Properties C23 and C24: drawing an occupancy grid with footprint inflation. *)
From Verif Require Import Common CSpace CSpaceProps Inflate InflateProofs.
Local Open Scope Z_scope.

(** ** Specification *)

(** Cell (x, y) of the message, its value, and the map cell it lies on. *)
Definition in_msg (g : grid) (x y : Z) : Prop := 0 <= x < gw g /\ 0 <= y < gh g.
Definition msg_value (g : grid) (x y : Z) : Z := nth (Z.to_nat (y * gw g + x)) (gdata g) 0.
Definition at_map (g : grid) (x y : Z) : Z * Z := (gsc g x + gox g, gsc g y + goy g).
Definition inside (m : cmap) (p : Z * Z) : Prop := 0 <= fst p < cw m /\ 0 <= snd p < ch m.

(** A well-formed message: one value per cell; with equal resolution the scaling is the identity. *)
Definition good_msg (g : grid) : Prop :=
  0 <= gw g /\ Z.of_nat (length (gdata g)) = gw g * gh g /\ (gsame g = true -> forall i, gsc g i = i).

(** The template says that the robot at pose [q] touches, with cost [c] (template
    percentage of the obstacle's cost), the obstacle of message cell (x, y). *)
Definition touches (k : fcfg) (g : grid) (m : cmap) (x y : Z) (q : cell) (c : Z) : Prop :=
  let '(qx, qy, qa) := q in
  let dx := qx - fst (at_map g x y) in let dy := qy - snd (at_map g x y) in
  in_msg g x y /\ 0 < msg_value g x y /\ inside m (at_map g x y) /\
  Z.abs dx <= f_r k /\ Z.abs dy <= f_r k /\
  c = Z.quot (f_tmpl k dx dy qa * msg_value g x y) 100 /\ 0 < c.

(** The message says "free" / "unknown" at the position of pose [q]. *)
Definition says_free (g : grid) (q : cell) : Prop :=
  exists x y, in_msg g x y /\ at_map g x y = fst q /\ msg_value g x y = 0.
Definition says_unknown (g : grid) (q : cell) : Prop :=
  exists x y, in_msg g x y /\ at_map g x y = fst q /\ msg_value g x y < 0.

(** Template that never grows when moving away from the centre along an axis. *)
Definition falls_off (k : fcfg) : Prop := forall a dx dy, Z.abs dx <= f_r k -> Z.abs dy <= f_r k ->
  0 <= f_tmpl k dx dy a /\
  (dx < 0 -> f_tmpl k dx dy a <= f_tmpl k (dx + 1) dy a) /\ (0 < dx -> f_tmpl k dx dy a <= f_tmpl k (dx - 1) dy a) /\
  (dy < 0 -> f_tmpl k dx dy a <= f_tmpl k dx (dy + 1) a) /\ (0 < dy -> f_tmpl k dx dy a <= f_tmpl k dx (dy - 1) a).

(** OVERWRITE mode resets the interior of the known part of the message first. *)
Definition reset_first (k : fcfg) (g : grid) (q : cell) : Prop :=
  f_clear k = true /\ exists x y dx dy, in_msg g x y /\ 0 <= msg_value g x y /\
    f_r k <= gsc g x < gw g - f_r k /\ f_r k <= gsc g y < gh g - f_r k /\
    0 <= dx < gup g /\ 0 <= dy < gup g /\ fst q = (gsc g x + gox g + dx, gsc g y + goy g + dy).

(** ** From indices to cells *)
Lemma index_of g x y : in_msg g x y ->
  let i := y * gw g + x in index g i /\ i mod gw g = x /\ i / gw g = y.
Proof.
  intros [Hx Hy]. cbv zeta. split; [|split].
  - unfold index. nia.
  - rewrite Z.add_comm, Z.mod_add, Z.mod_small by lia. reflexivity.
  - rewrite Z.add_comm, Z.div_add, Z.div_small by lia. lia.
Qed.
Lemma of_index g i : 0 <= gw g -> index g i ->
  in_msg g (i mod gw g) (i / gw g) /\ i / gw g * gw g + i mod gw g = i.
Proof. intros W I. destruct (index_coords g W i I) as (A & B & C & _). unfold in_msg. split; [auto|lia]. Qed.

Lemma contrib_touches k g m qx qy qa c : good_msg g -> 0 <= f_r k ->
  (exists i, index g i /\ contrib k g m qa i (qx, qy, qa) c) ->
  (c = 0 /\ says_free g (qx, qy, qa)) \/ exists x y, touches k g m x y (qx, qy, qa) c.
Proof.
  intros (W & L & S) R (i & I & _ & Eo & H). destruct (of_index g i W I) as [IM EI].
  destruct H as [(V & -> & -> & ->)|(V & A & -> & C)].
  - left. split; [reflexivity|]. exists (i mod gw g), (i / gw g). split; [assumption|]. split; [reflexivity|].
    unfold msg_value. rewrite EI. exact V.
  - right. exists (i mod gw g), (i / gw g). apply off_map_false in Eo. pose proof (range_bounds k g R i) as RB.
    unfold allowed in A. destruct (the_range k g i) as [[[x0 x1] y0] y1]. unfold touches, at_map, inside, msg_value. rewrite EI.
    unfold gposx, gposy in *. cbn [fst snd]. unfold value in *. unfold c_quot in *.
    split; [assumption|]. split; [assumption|]. split; [assumption|]. split; [lia|]. split; [lia|]. split; [reflexivity|assumption].
Qed.
Lemma unknown_iff g q : good_msg g -> msg_unknown g q <-> says_unknown g q.
Proof.
  intros (W & L & S). destruct q as [[qx qy] qa]. unfold msg_unknown, says_unknown, at_map. cbn [fst]. split.
  - intros (i & I & <- & <- & V). destruct (of_index g i W I) as [IM EI].
    exists (i mod gw g), (i / gw g). split; [assumption|]. split; [reflexivity|]. unfold msg_value. rewrite EI. exact V.
  - intros (x & y & IM & E & V). injection E as <- <-. destruct (index_of g x y IM) as (I & EX & EY).
    exists (y * gw g + x). unfold gposx, gposy. rewrite EX, EY. auto.
Qed.
Lemma reset_iff k g m q : good_msg g -> clear_target k g m q <-> reset_first k g q.
Proof.
  intros (W & L & S). destruct q as [[qx qy] qa]. unfold clear_target, reset_first. cbn [fst]. split; intros [F H]; (split; [exact F|]).
  - destruct H as (i & dx & dy & I & V & X & Y & DX & DY & -> & ->). destruct (of_index g i W I) as [IM EI].
    exists (i mod gw g), (i / gw g), dx, dy. unfold msg_value. rewrite EI. auto 10.
  - destruct H as (x & y & dx & dy & IM & V & X & Y & DX & DY & E). injection E as -> ->.
    destruct (index_of g x y IM) as (I & EX & EY). exists (y * gw g + x), dx, dy. rewrite EX, EY. auto 10.
Qed.

(** ** C24 *)

(** Every cell after drawing, in terms of its cost before. *)
Theorem C24_inflation_writes_nothing_spurious k g m :
  wf m -> good_msg g -> 0 <= f_r k ->
  exists m', generate k g m = Ok m' /\ wf m' /\ same_dims m m' /\
  forall q, in_map m q ->
  exists before, (reset_first k g q -> before = -1) /\ (~ reset_first k g q -> before = peek m q) /\
    let kept := f_keep k = true /\ says_unknown g q /\ before < 0 in
    (kept -> peek m' q = -1) /\
    (~ kept -> before <= peek m' q /\
       (says_free g q -> 0 <= peek m' q) /\
       (peek m' q = before \/ (peek m' q = 0 /\ before < 0 /\ says_free g q) \/
        exists x y, touches k g m x y q (peek m' q))).
Proof.
  intros W G R. pose proof G as (Gw & GL & GS).
  destruct (generate_ok k g R Gw GL m W) as (m' & E & W' & D & H). exists m'. split; [assumption|]. split; [assumption|].
  split; [assumption|]. intros q I. destruct (H q I) as (v & V1 & V2 & C1 & C2). exists v.
  split. { intros T. apply V1, (reset_iff k g m q G). exact T. }
  split. { intros T. apply V2. intros T2. apply T, (reset_iff k g m q G). exact T2. }
  pose proof (unknown_iff g q G) as U. split.
  - intros (K1 & K2 & K3). apply C1. repeat split; try assumption. apply U. assumption.
  - intros N. destruct C2 as (A & B & C). { intros (K1 & K2 & K3). apply N. repeat split; try assumption. apply U. assumption. }
    split; [assumption|]. split.
    + intros (x & y & IM & P & V). apply B. destruct (index_of g x y IM) as (Ii & EX & EY). exists (y * gw g + x). split; [assumption|].
      destruct q as [[qx qy] qa]. unfold contrib, gposx, gposy. rewrite EX, EY. cbn [fst] in P. injection P as <- <-.
      split; [reflexivity|]. split. { apply off_map_false. cbn in I. tauto. } left. unfold value. auto.
    + destruct C as [C|C]; [auto|]. destruct q as [[qx qy] qa]. cbn [snd] in C.
      destruct (contrib_touches k g m qx qy qa _ G R C) as [(C3 & C4)|C3]; [|auto].
      destruct (Z_lt_le_dec v 0); [right; left; auto|left; lia].
Qed.

(** ** C23 *)

(** The pose is not kept unknown. *)
Definition pose_known (k : fcfg) (g : grid) (q : cell) : Prop := f_keep k = false \/ ~ says_unknown g q.

Lemma not_kept k g q v : good_msg g -> pose_known k g q -> ~ (f_keep k = true /\ msg_unknown g q /\ v < 0).
Proof. intros G P (K & U & _). destruct P as [P|P]; [congruence|]. apply P, unknown_iff; assumption. Qed.

(** Message of another resolution than the map: no restriction on the template or the pose. *)
Theorem C23_inflation_covers_footprint_other_resolution k g m m' x y q c :
  wf m -> good_msg g -> 0 <= f_r k -> gsame g = false ->
  generate k g m = Ok m' -> in_map m q -> pose_known k g q ->
  touches k g m x y q c -> c <= peek m' q.
Proof.
  intros W G R F E I P T. pose proof G as (Gw & GL & GS).
  destruct (generate_ok k g R Gw GL m W) as (m2 & E2 & _ & _ & H). rewrite E in E2. injection E2 as <-.
  destruct (H q I) as (v & _ & _ & _ & C2). destruct (C2 (not_kept k g q v G P)) as (_ & B & _). apply B.
  destruct q as [[qx qy] qa]. unfold touches, at_map, inside in T. cbn [fst snd] in *.
  destruct T as (IM & V & IN & DX & DY & -> & C). destruct (index_of g x y IM) as (Ii & EX & EY).
  exists (y * gw g + x). split; [assumption|]. unfold contrib, gposx, gposy. rewrite EX, EY. split; [reflexivity|].
  split; [apply off_map_false; tauto|]. right. unfold allowed, the_range. rewrite F. unfold c_quot, value, msg_value in *.
  split; [assumption|]. split; [lia|]. split; [reflexivity|assumption].
Qed.

(** Message of the map's resolution (the neighbour-masking shortcut is used):
    templates that fall off along the axes, poses over the message's area. *)
Theorem C23_inflation_covers_footprint_same_resolution k g m m' x y qx qy qa c :
  wf m -> good_msg g -> 0 <= f_r k -> gsame g = true -> falls_off k ->
  generate k g m = Ok m' -> in_map m (qx, qy, qa) -> pose_known k g (qx, qy, qa) ->
  in_msg g (qx - gox g) (qy - goy g) ->
  touches k g m x y (qx, qy, qa) c -> c <= peek m' (qx, qy, qa).
Proof.
  intros W G R F Mono E I P Q T. pose proof G as (Gw & GL & GS). specialize (GS F).
  destruct (generate_ok k g R Gw GL m W) as (m2 & E2 & _ & _ & H). rewrite E in E2. injection E2 as <-.
  destruct (H _ I) as (v & _ & _ & _ & C2). destruct (C2 (not_kept k g _ v G P)) as (_ & B & _).
  unfold touches, at_map, inside in T. cbn [fst snd] in *. rewrite !GS in T.
  destruct T as (IM & V & IN & DX & DY & Ec & C). destruct (index_of g x y IM) as (Ii & EX & EY).
  destruct Q as [Q1 Q2]. set (i := y * gw g + x) in *.
  assert (Mono' : monotone_template k). { intros a dx dy A1 A2. apply (Mono a dx dy); lia. }
  destruct (masked_cover k g R Gw GL F Mono' qa (qx - gox g) (qy - goy g) Q1 Q2 _ i (le_n _) Ii) as (j & Ij & Vj & Aj & Tj & Bx & By).
  { unfold value. exact V. } { rewrite EX; lia. } { rewrite EY; lia. }
  rewrite EX, EY in *. cbn in I.
  set (t1 := f_tmpl k (qx - gox g - x) (qy - goy g - y) qa) in *.
  set (t2 := f_tmpl k (qx - gox g - j mod gw g) (qy - goy g - j / gw g) qa) in *.
  assert (T1 : 0 <= t1). { apply (Mono qa (qx - gox g - x) (qy - goy g - y)); lia. }
  assert (c <= Z.quot (t2 * value g j) 100).
  { rewrite Ec. replace (qx - (x + gox g)) with (qx - gox g - x) by lia. replace (qy - (y + goy g)) with (qy - goy g - y) by lia.
    fold t1. change (msg_value g x y) with (value g i) in *. apply Z.quot_le_mono; [lia|]. nia. }
  assert (Hj : exists i0, index g i0 /\ contrib k g m qa i0 (qx, qy, qa) (Z.quot (t2 * value g j) 100)).
  { exists j. split; [assumption|]. unfold contrib, gposx, gposy. rewrite !GS. split; [reflexivity|].
    split; [apply off_map_false; lia|]. right.
    replace (qx - (j mod gw g + gox g)) with (qx - gox g - j mod gw g) by lia.
    replace (qy - (j / gw g + goy g)) with (qy - goy g - j / gw g) by lia. fold t2.
    split; [unfold value in *; change (0 < value g i) in V; unfold value in *; lia|]. split; [exact Aj|]. split; [reflexivity|lia]. }
  specialize (B _ Hj). lia.
Qed.

(** *** What the shortcut loses *)

Definition ex_map (n : Z) (v : Z) : cmap := Cmap n n 1 (repeat v (Z.to_nat (n * n))).
Lemma ex_map_wf n v : 0 <= n -> wf (ex_map n v).
Proof. intros. unfold wf, ex_map. cbn. rewrite repeat_length. nia. Qed.

(** A slender footprint (length 10, width 1.4, in cells) standing diagonally: the template
    does not fall off along the axes. *)
Definition slender : fcfg :=
  Fcfg (fun dx dy _ => if (Z.abs (dx + dy) <=? 10) && (Z.abs (dx - dy) <=? 1) then 100 else 0) 6 false false.
(** A horizontal wall through a 15 x 15 map. *)
Definition wall : grid :=
  Grid 15 15 (map (fun i => if i / 15 =? 7 then 100 else 0) (range_excl 0 225)) 0 0 (fun i => i) true 1.

(** The pose (7, 10) touches the wall with cost 100 but keeps cost 0. *)
Theorem C23_slender_footprint_is_covered_refuted :
  exists k g m m' x y q c, wf m /\ good_msg g /\ 0 <= f_r k /\ gsame g = true /\
    generate k g m = Ok m' /\ in_map m q /\ pose_known k g q /\ in_msg g (fst (fst q) - gox g) (snd (fst q) - goy g) /\
    touches k g m x y q c /\ c = 100 /\ peek m' q = 0.
Proof.
  destruct (generate slender wall (ex_map 15 0)) as [m'|] eqn:E; [|vm_compute in E; discriminate].
  exists slender, wall, (ex_map 15 0), m', 4, 7, (7, 10, 0), 100.
  split; [apply ex_map_wf; lia|]. split. { split; [cbn; lia|]. split; [reflexivity|reflexivity]. }
  split; [cbn; lia|]. split; [reflexivity|]. split; [assumption|]. split; [cbn; lia|]. split; [left; reflexivity|].
  split; [cbn; unfold in_msg; cbn; lia|]. split.
  { unfold touches, at_map, inside, in_msg, msg_value. cbn [fst snd gsc gox goy wall gw gh].
    split; [lia|]. split; [vm_compute; reflexivity|]. split; [cbn; lia|]. split; [cbn; lia|]. split; [cbn; lia|].
    split; [vm_compute; reflexivity|lia]. }
  split; [reflexivity|].
  assert (X : match generate slender wall (ex_map 15 0) with Ok m' => peek m' (7, 10, 0) | UB => 1 end = 0) by (vm_compute; reflexivity).
  rewrite E in X. exact X.
Qed.

(** Full square template of radius 1. *)
Definition square1 : fcfg := Fcfg (fun _ _ _ => 100) 1 false false.
(** A message with one obstacle cell, at map cell (1, 1): its neighbours outside the message stay free. *)
Definition dot (ox oy : Z) : grid := Grid 1 1 [100] ox oy (fun i => i) true 1.
Theorem C23_poses_beyond_the_message_are_covered_refuted :
  exists k g m m' x y q c, wf m /\ good_msg g /\ 0 <= f_r k /\ gsame g = true /\ falls_off k /\
    generate k g m = Ok m' /\ in_map m q /\ pose_known k g q /\ touches k g m x y q c /\ c = 100 /\ peek m' q = 0.
Proof.
  destruct (generate square1 (dot 1 1) (ex_map 3 0)) as [m'|] eqn:E; [|vm_compute in E; discriminate].
  exists square1, (dot 1 1), (ex_map 3 0), m', 0, 0, (0, 1, 0), 100.
  split; [apply ex_map_wf; lia|]. split. { split; [cbn; lia|]. split; [reflexivity|reflexivity]. }
  split; [cbn; lia|]. split; [reflexivity|]. split. { intros a dx dy _ _. cbn. lia. }
  split; [assumption|]. split; [cbn; lia|]. split; [left; reflexivity|]. split.
  { unfold touches, at_map, inside, in_msg, msg_value. cbn. lia. }
  split; [reflexivity|]. vm_compute in E. injection E as <-. reflexivity.
Qed.

(** An obstacle one cell outside the map is not drawn although the robot at the edge touches it. *)
Theorem C23_obstacles_outside_the_map_are_covered_refuted :
  exists k g m m', wf m /\ good_msg g /\ falls_off k /\ generate k g m = Ok m' /\
    msg_value g 0 0 = 100 /\ at_map g 0 0 = (-1, 1) /\ f_tmpl k 1 0 0 = 100 /\ f_r k = 1 /\ in_map m (0, 1, 0) /\ peek m' (0, 1, 0) = 0.
Proof.
  destruct (generate square1 (dot (-1) 1) (ex_map 3 0)) as [m'|] eqn:E; [|vm_compute in E; discriminate].
  exists square1, (dot (-1) 1), (ex_map 3 0), m'.
  split; [apply ex_map_wf; lia|]. split. { split; [cbn; lia|]. split; [reflexivity|reflexivity]. }
  split. { intros a dx dy _ _. cbn. lia. }
  split; [assumption|]. split; [reflexivity|]. split; [reflexivity|]. split; [reflexivity|]. split; [reflexivity|]. split; [cbn; lia|].
  vm_compute in E. injection E as <-. reflexivity.
Qed.

(** *** The base map *)

Definition at_base (w : Z) (data : list Z) (x y : Z) : Z := nth (Z.to_nat (y * w + x)) data 0.
(** The robot at (qx, qy, qa) touches the obstacle of base map cell (x, y) with cost [c]. *)
Definition touches_base (k : fcfg) (w h : Z) (data : list Z) (x y qx qy qa c : Z) : Prop :=
  0 <= x < w /\ 0 <= y < h /\ 0 < at_base w data x y /\ Z.abs (qx - x) <= f_r k /\ Z.abs (qy - y) <= f_r k /\
  c = Z.quot (f_tmpl k (qx - x) (qy - y) qa * at_base w data x y) 100 /\ 0 < c.

Lemma base_touches k b w h a data x y qx qy qa c :
  touches (Fcfg (f_tmpl k) (f_r k) b false) (base_grid w h data) (Cmap w h a (repeat (-1) (Z.to_nat (w * h * a)))) x y (qx, qy, qa) c
  <-> touches_base k w h data x y qx qy qa c.
Proof.
  unfold touches, touches_base, inside, in_msg, at_map, msg_value, at_base. cbn [gw gh gdata gsc gox goy base_grid cw ch f_r f_tmpl fst snd].
  rewrite !Z.add_0_r. tauto.
Qed.

(** Known base map cells: every pose gets at least the cost of each obstacle it touches, and exactly
    0 or one of these costs; unknown base map cells are unknown at every heading. *)
Theorem C23_base_map_is_the_inflated_map k w h a data :
  0 <= w -> 0 <= h -> 0 <= a -> Z.of_nat (length data) = w * h -> 0 <= f_r k -> falls_off k ->
  exists m', base_map k w h a data = Ok m' /\ wf m' /\ cw m' = w /\ ch m' = h /\ ca m' = a /\
  forall qx qy qa, 0 <= qx < w -> 0 <= qy < h -> 0 <= qa < a ->
    (at_base w data qx qy < 0 -> peek m' (qx, qy, qa) = -1) /\
    (0 <= at_base w data qx qy ->
       (forall x y c, touches_base k w h data x y qx qy qa c -> c <= peek m' (qx, qy, qa)) /\
       (peek m' (qx, qy, qa) = 0 \/ (at_base w data qx qy <> 0 /\ peek m' (qx, qy, qa) = -1) \/
        exists x y, touches_base k w h data x y qx qy qa (peek m' (qx, qy, qa)))).
Proof.
  intros Hw Hh Ha HL R Mono. unfold base_map.
  set (k' := Fcfg (f_tmpl k) (f_r k) (f_keep k) false). set (g := base_grid w h data).
  set (m0 := Cmap w h a (repeat (-1) (Z.to_nat (w * h * a)))).
  assert (W0 : wf m0). { unfold wf, m0. cbn. rewrite repeat_length. split; [assumption|]. split; [assumption|]. split; [assumption|]. nia. }
  assert (G : good_msg g). { split; [exact Hw|]. split; [exact HL|reflexivity]. }
  destruct (C24_inflation_writes_nothing_spurious k' g m0 W0 G R) as (m1 & E1 & W1 & D1 & H1). rewrite E1. cbn [bind].
  destruct (cleared_fold (fun m yaw => foldM (fun m i => do v <- msg_at g i; if v <? 0 then setc m (i mod w) (i / w) yaw (-1) else Ok m)
       (range_excl 0 (w * h)) m) (fun yaw q => exists i, In i (range_excl 0 (w * h)) /\ value g i < 0 /\ q = (i mod w, i / w, yaw))
       (range_excl 0 a) m0 m1 W1 D1) as (m2 & E2 & W2 & D2 & H2).
  { intros m yaw Hy W D. apply in_range_excl in Hy.
    apply (cleared_fold _ (fun i q => value g i < 0 /\ q = (i mod w, i / w, yaw)) _ m0 m W D). clear m W D.
    intros m i Hi W D. apply in_range_excl in Hi. assert (Ii : index g i) by exact Hi.
    rewrite (msg_at_ok g HL i Ii). cbn [bind]. destruct (Z.ltb_spec (value g i) 0).
    - destruct (index_coords g Hw i Ii) as (X & Y & _). cbn [gw gh g base_grid] in X, Y. destruct D as (Dw & Dh & Dc).
      destruct (setc_cleared m (i mod w) (i / w) yaw W) as (m3 & E3 & R3). { unfold m0 in *. cbn in Dw, Dh, Dc |- *. lia. }
      exists m3. split; [assumption|]. eapply cleared_ext; [|exact R3]. intros q _. cbn. tauto.
    - exists m. split; [reflexivity|]. eapply cleared_ext; [|apply cleared_none; assumption]. intros q _. split; [tauto|]. lia. }
  exists m2. split; [exact E2|]. split; [assumption|].
  assert (DD : same_dims m0 m2) by (eapply same_dims_trans; eassumption). destruct DD as (Dw & Dh & Dc). unfold m0 in Dw, Dh, Dc. cbn in Dw, Dh, Dc.
  split; [congruence|]. split; [congruence|]. split; [congruence|].
  intros qx qy qa Qx Qy Qa. assert (I0 : in_map m0 (qx, qy, qa)) by (cbn; tauto).
  assert (I1 : in_map m1 (qx, qy, qa)) by (apply (same_dims_in_map m0 m1); assumption).
  destruct (H2 _ I1) as (A2 & B2). assert (IQ : in_msg g qx qy) by (split; assumption).
  destruct (index_of g qx qy IQ) as (Ii & EX & EY). cbn [gw g base_grid] in Ii, EX, EY.
  assert (V : at_base w data qx qy = value g (qy * w + qx)) by reflexivity.
  assert (P0 : peek m0 (qx, qy, qa) = -1) by apply nth_repeat.
  split.
  - intros N. apply A2. exists qa. split; [apply in_range_excl; assumption|]. exists (qy * w + qx).
    split; [apply in_range_excl; exact Ii|]. split; [congruence|]. rewrite EX, EY. reflexivity.
  - intros N.
    assert (E : peek m2 (qx, qy, qa) = peek m1 (qx, qy, qa)).
    { destruct B2 as [B2|[(yaw & _ & i & Hi & Vi & Eq) _]]; [exact B2|]. exfalso. injection Eq as E3 E4 _.
      apply in_range_excl in Hi. assert (Ix : index g i) by exact Hi. destruct (index_coords g Hw i Ix) as (_ & _ & C & _).
      cbn [gw g base_grid] in C. rewrite <- E3, <- E4 in C. rewrite <- C in V. lia. }
    rewrite E.
    assert (NU : ~ says_unknown g (qx, qy, qa)).
    { intros (x & y & IM & Eq & Vx). unfold at_map in Eq. cbn in Eq. injection Eq as Ex Ey. rewrite Z.add_0_r in Ex, Ey. subst x y.
      unfold msg_value in Vx. cbn [gw gdata g base_grid] in Vx. unfold at_base in N. lia. }
    split.
    + intros x y c T. apply (base_touches k (f_keep k) w h a) in T.
      apply (C23_inflation_covers_footprint_same_resolution k' g m0 m1 x y qx qy qa c W0 G R eq_refl Mono E1 I0); [right; exact NU| |exact T].
      cbn [gox goy g base_grid]. rewrite !Z.sub_0_r. exact IQ.
    + destruct (H1 _ I0) as (v & V1 & V2 & _ & C). destruct C as (C1 & C2 & C3); [intros (_ & U & _); tauto|].
      rewrite V2, P0 in * by (intros [F _]; discriminate).
      destruct C3 as [C3|[(C3 & _)|(x & y & C3)]].
      * right. left. split; [|exact C3]. intros Z0. assert (says_free g (qx, qy, qa)).
        { exists qx, qy. split; [assumption|]. split; [unfold at_map; cbn [gsc gox goy g base_grid fst]; rewrite !Z.add_0_r; reflexivity|]. exact Z0. } specialize (C2 H). lia.
      * auto.
      * right. right. exists x, y. apply (base_touches k (f_keep k) w h a). exact C3.
Qed.

(** ** Examples *)

(** A square robot of radius 1 and one obstacle (cost 80) in the middle of a 5 x 5 base map with one unknown cell. *)
Definition ex_base : list Z := [0;0;0;0;0; 0;0;0;0;0; 0;0;80;0;0; 0;0;0;0;0; 0;0;0;0;-1].
Example ex_base_map : exists m', base_map square1 5 5 2 ex_base = Ok m' /\
  peek m' (1, 1, 0) = 80 /\ peek m' (3, 3, 1) = 80 /\ peek m' (0, 2, 0) = 0 /\ peek m' (4, 4, 1) = -1.
Proof. eexists. split; [vm_compute; reflexivity|]. vm_compute. auto. Qed.
Example ex_falls_off : falls_off square1.
Proof. intros a dx dy _ _. cbn. lia. Qed.
Example ex_touches : touches_base square1 5 5 ex_base 2 2 1 1 0 80.
Proof. unfold touches_base. change (at_base 5 ex_base 2 2) with 80. cbn [square1 f_r f_tmpl]. repeat apply conj; try lia. reflexivity. Qed.
(** A cone shaped template. *)
Definition cone (r : Z) : fcfg := Fcfg (fun dx dy _ => Z.max 0 (100 - 100 * Z.max (Z.abs dx) (Z.abs dy) / (r + 1))) r true true.
Example ex_cone : falls_off (cone 3).
Proof.
  intros a dx dy Hx Hy. cbn [f_tmpl cone f_r] in *.
  assert (forall u v, u <= v -> Z.max 0 (100 - 100 * v / (3 + 1)) <= Z.max 0 (100 - 100 * u / (3 + 1))).
  { intros u v L. assert (100 * u / (3 + 1) <= 100 * v / (3 + 1)) by (apply Z.div_le_mono; lia). lia. }
  split; [lia|]. split; [|split; [|split]]; intros; apply H; lia.
Qed.
(** An overlay of half the resolution, in overwrite mode, keeping unknown cells. *)
Definition ex_over : grid := Grid 3 3 [0;0;0; 0;100;0; 0;0;-1] 1 1 (fun i => 2 * i) false 2.
Example ex_over_drawn : exists m', generate (cone 1) ex_over (ex_map 8 (-1)) = Ok m' /\
  peek m' (3, 3, 0) = 100 /\ peek m' (2, 3, 0) = 50 /\ peek m' (5, 5, 0) = -1 /\ peek m' (1, 1, 0) = 0 /\ peek m' (0, 0, 0) = -1.
Proof. eexists. split; [vm_compute; reflexivity|]. vm_compute. auto 10. Qed.
Example ex_over_good : good_msg ex_over.
Proof. split; [cbn; lia|]. split; [reflexivity|]. intros; discriminate. Qed.

Print Assumptions C24_inflation_writes_nothing_spurious.
Print Assumptions C23_inflation_covers_footprint_other_resolution.
Print Assumptions C23_inflation_covers_footprint_same_resolution.
Print Assumptions C23_base_map_is_the_inflated_map.
Print Assumptions C23_slender_footprint_is_covered_refuted.
Print Assumptions C23_poses_beyond_the_message_are_covered_refuted.
Print Assumptions C23_obstacles_outside_the_map_are_covered_refuted.
