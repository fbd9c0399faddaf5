(** Properties C32 (point in polygon) and C58 (the inflation template). *)
From Coq Require Import Reals Lra Lia Psatz.
From Verif Require Import Common Polygon PolygonProofs.
Local Open Scope R_scope.

(** ** C32 *)
(** [polygon_of pts] is the polygon made from a list of vertices; [inside f a] is the containment test. *)
Theorem C32_any_start_vertex l1 l2 f g a : polygon_of (l1 ++ l2) = Some f -> polygon_of (l2 ++ l1) = Some g -> inside g a = inside f a.
Proof.
  intros F G. apply polygon_of_close in F as [-> F]. apply polygon_of_close in G as [-> G].
  rewrite !inside_count by (apply close_nonempty; intros E; rewrite E in *; cbn in *; lia). rewrite rotate. reflexivity.
Qed.
Theorem C32_any_orientation pts f g a : polygon_of pts = Some f -> polygon_of (rev pts) = Some g -> inside g a = inside f a.
Proof.
  intros F G. apply polygon_of_close in F as [-> F]. apply polygon_of_close in G as [-> G].
  rewrite !inside_count by (apply close_nonempty; intros E; rewrite E in *; cbn in *; lia). rewrite reverse. reflexivity.
Qed.

Definition shift (d v : vec2) : vec2 := V2 (vx v + vx d) (vy v + vy d).
Lemma edges_map (f : vec2 -> vec2) l : edges (map f l) = map (fun e => (f (fst e), f (snd e))) (edges l).
Proof.
  induction l as [|a l IH]; [reflexivity|]. destruct l as [|b l]; [reflexivity|].
  change (edges (map f (a :: b :: l))) with ((f a, f b) :: edges (map f (b :: l))). rewrite IH. reflexivity.
Qed.
Lemma crossing_shift d a e : crossing (shift d a) (shift d (fst e), shift d (snd e)) = crossing a e.
Proof.
  destruct e as [v1 v2]. apply bool_ext. rewrite !crossing_iff. cbn [fst snd].
  replace (turn (shift d v1) (shift d v2) (shift d a)) with (turn v1 v2 a) by (unfold turn, cross, vsub, shift; cbn; ring).
  unfold up, shift. cbn. intuition lra.
Qed.
Theorem C32_translation f d a : inside (map (shift d) f) (shift d a) = inside f a.
Proof.
  destruct f as [|v f]; [reflexivity|]. set (l := v :: f). rewrite !inside_count by (unfold l; cbn; discriminate).
  f_equal. f_equal. unfold count. rewrite edges_map, filter_map_length. f_equal. apply filter_ext. intros e. apply crossing_shift.
Qed.

(** Axis-aligned rectangles: left and lower edge belong to it, right and upper edge do not. *)
Theorem C32_rectangle_is_exact x0 x1 y0 y1 f a : x0 < x1 -> y0 < y1 ->
  polygon_of [V2 x0 y0; V2 x1 y0; V2 x1 y1; V2 x0 y1] = Some f ->
  exists b, inside f a = Ok b /\ (b = true <-> x0 <= vx a < x1 /\ y0 <= vy a < y1).
Proof.
  intros X Y F. injection F as <-. eexists. split; [reflexivity|].
  change (Nat.odd (length (filter (crossing a) (edges [V2 x0 y0; V2 x1 y0; V2 x1 y1; V2 x0 y1; V2 x0 y0]))) = true <-> x0 <= vx a < x1 /\ y0 <= vy a < y1).
  set (e1 := (V2 x0 y0, V2 x1 y0)). set (e2 := (V2 x1 y0, V2 x1 y1)). set (e3 := (V2 x1 y1, V2 x0 y1)). set (e4 := (V2 x0 y1, V2 x0 y0)).
  change (edges _) with [e1; e2; e3; e4].
  assert (C1 : crossing a e1 = false) by (apply not_true_is_false; unfold e1; rewrite crossing_iff; unfold up; cbn; lra).
  assert (C3 : crossing a e3 = false) by (apply not_true_is_false; unfold e3; rewrite crossing_iff; unfold up; cbn; lra).
  assert (C2 : crossing a e2 = true <-> vx a < x1 /\ y0 <= vy a < y1).
  { unfold e2. rewrite crossing_iff. unfold up, turn, cross, vsub. cbn. replace (x1 - x1) with 0 by ring. split; [intros [[A B]|[A B]]|intros [A B]]; [|lra|left].
    - split; [|assumption]. nra.
    - split; [assumption|]. nra. }
  assert (C4 : crossing a e4 = true <-> vx a < x0 /\ y0 <= vy a < y1).
  { unfold e4. rewrite crossing_iff. unfold up, turn, cross, vsub. cbn. replace (x0 - x0) with 0 by ring. split; [intros [[A B]|[A B]]|intros [A B]]; [lra| |right].
    - split; [|assumption]. nra.
    - split; [assumption|]. nra. }
  cbn [filter]. rewrite C1, C3. destruct (crossing a e2), (crossing a e4); cbn; intuition (try discriminate; lra).
Qed.

(** A contained point is in the convex hull of the vertices: no half-plane that avoids it holds all vertices. *)
Theorem C32_inside_points_are_within_the_hull pts f a nx ny : polygon_of pts = Some f -> inside f a = Ok true ->
  exists v, In v pts /\ nx * vx v + ny * vy v <= nx * vx a + ny * vy a.
Proof.
  intros F I. apply polygon_of_close in F as [-> L].
  destruct (Exists_dec (fun v => nx * vx v + ny * vy v <= nx * vx a + ny * vy a) pts) as [E|E];
    [intros v; destruct (Rle_dec (nx * vx v + ny * vy v) (nx * vx a + ny * vy a)); [left|right]; assumption| |].
  - apply Exists_exists in E. exact E.
  - exfalso. rewrite inside_count in I by (apply close_nonempty; intros Q; rewrite Q in L; cbn in L; lia).
    rewrite (separated pts a nx ny) in I; [discriminate|]. intros v Hv.
    destruct (Rlt_dec 0 (nx * (vx v - vx a) + ny * (vy v - vy a))) as [|N]; [assumption|]. exfalso. apply E. apply Exists_exists. exists v. split; [assumption|lra].
Qed.

(** Convex polygons (vertices counter-clockwise): a point strictly left of all edges is inside, a point strictly right of some
    edge is not.  [turn p q r > 0] means that r is left of the line from p to q. *)
Definition edge_of (pts : list vec2) (p q : vec2) : Prop :=
  exists i, (i < length pts)%nat /\ p = nth i pts (V2 0 0) /\ q = nth (S i mod length pts) pts (V2 0 0).
Theorem C32_convex_polygon_is_exact pts f a : strictly_convex pts -> polygon_of pts = Some f ->
  ((forall p q, edge_of pts p q -> 0 < turn p q a) -> inside f a = Ok true) /\
  ((exists p q, edge_of pts p q /\ turn p q a < 0) -> inside f a = Ok false).
Proof.
  intros C F. apply polygon_of_close in F as [-> L]. rewrite inside_count by (apply close_nonempty; intros Q; rewrite Q in L; cbn in L; lia). split.
  - intros H. rewrite convex_count; [reflexivity|assumption|]. intros i Hi. unfold vtx. apply H. exists i. rewrite Nat.mod_small by assumption. auto.
  - intros (p & q & (i & Hi & -> & ->) & T). set (p := nth i pts (V2 0 0)) in *. set (q := nth (S i mod length pts) pts (V2 0 0)) in *.
    rewrite (separated pts a (- (vy q - vy p)) (vx q - vx p)); [reflexivity|]. intros v Hv. destruct (In_nth _ _ (V2 0 0) Hv) as (k & Hk & Ek).
    assert (0 <= turn p q v).
    { destruct (Nat.eq_dec k i) as [->|N1]; [rewrite <- Ek; fold p; unfold turn, cross, vsub; cbn; lra|].
      destruct (Nat.eq_dec k (S i mod length pts)) as [->|N2]; [rewrite <- Ek; fold q; unfold turn, cross, vsub; cbn; lra|].
      left. rewrite <- Ek. apply (proj2 C); assumption. }
    unfold turn, cross, vsub in *. cbn in *. lra.
Qed.

(** The test is not invariant under rotation for points on the boundary. *)
Theorem C32_rotation_invariance_refuted : exists pts f g a,
  polygon_of pts = Some f /\ polygon_of (map (fun v => V2 (- vx v) (- vy v)) pts) = Some g /\
  inside f a = Ok true /\ inside g (V2 (- vx a) (- vy a)) = Ok false.
Proof.
  exists [V2 0 0; V2 1 0; V2 1 1; V2 0 1], [V2 0 0; V2 1 0; V2 1 1; V2 0 1; V2 0 0], [V2 0 0; V2 (-1) 0; V2 (-1) (-1); V2 0 (-1); V2 0 0], (V2 0 0).
  split; [reflexivity|]. split; [cbn; rewrite Ropp_0; reflexivity|]. split.
  - destruct (C32_rectangle_is_exact 0 1 0 1 _ (V2 0 0) ltac:(lra) ltac:(lra) eq_refl) as (b & E & B). cbn [app] in E. rewrite E. f_equal. apply B. cbn. lra.
  - cbn [vx vy]. rewrite Ropp_0.
    destruct (C32_rectangle_is_exact (-1) 0 (-1) 0 _ (V2 0 0) ltac:(lra) ltac:(lra) eq_refl) as (b & E & B). cbn [app] in E.
    pose proof (C32_any_start_vertex [V2 (-1) (-1); V2 0 (-1)] [V2 0 0; V2 (-1) 0] _ _ (V2 0 0) eq_refl eq_refl) as R. cbn [app] in R.
    rewrite R, E. f_equal. apply not_true_is_false. intros Q. apply B in Q. cbn in Q. lra.
Qed.

(** ** C58: segment distance and the template *)
Theorem C58_distance_to_an_edge_is_the_least_distance p a b :
  (forall q, on_segment a b q -> dist_linestrip p a b <= vdist p q) /\ exists q, on_segment a b q /\ dist_linestrip p a b = vdist p q.
Proof. apply segment_distance. Qed.

(** The footprint placed with the robot at cell (x, y) and heading index yaw. *)
Definition placed (c : params) (fp : list vec2) (x y yaw : Z) : list vec2 :=
  move (IZR x * lin_res c) (IZR y * lin_res c) (IZR yaw * ang_res c) fp.
Definition good_params (c : params) : Prop :=
  0 <= expand c /\ 0 <= spread c /\ (0 <= min_cost c < 100)%Z /\ 0 < lin_res c /\ expand c + spread c + lin_res c <= FLT_MAX.
(** [D] is the distance of the origin from the outline [f]. *)
Definition outline_distance (f : list vec2) (D : R) : Prop :=
  (forall q, on_outline f q -> D <= vdist (V2 0 0) q) /\ exists q, on_outline f q /\ D = vdist (V2 0 0) q.

Lemma norm_le_radius fp q : (exists e, In e (edges fp) /\ on_segment (fst e) (snd e) q) -> sqrt (norm2 q) <= radius fp.
Proof.
  intros ([e1 e2] & I & t & T & ->). cbn [fst snd] in *. destruct (radius_spec fp) as (R0 & R1 & _).
  assert (I1 : In e1 fp /\ In e2 fp) by (destruct fp as [|v l]; [destruct I|]; apply edges_in in I; exact I). destruct I1 as [I1 I2]. apply R1 in I1, I2.
  set (r := radius fp) in *.
  assert (G : forall v, sqrt (norm2 v) <= r -> norm2 v <= r * r).
  { intros v H. assert (0 <= norm2 v) by (unfold norm2; nra). rewrite <- (sqrt_sqrt (norm2 v)) by assumption. apply Rmult_le_compat; auto using sqrt_pos. }
  apply G in I1, I2. rewrite <- (sqrt_square r) by assumption. apply sqrt_le_1_alt. unfold norm2 in *. cbn [vx vy].
  assert (0 <= t * (1 - t)) by nra.
  assert (E : (vx e1 + t * (vx e2 - vx e1)) * (vx e1 + t * (vx e2 - vx e1)) + (vy e1 + t * (vy e2 - vy e1)) * (vy e1 + t * (vy e2 - vy e1))
    = (1 - t) * (vx e1 * vx e1 + vy e1 * vy e1) + t * (vx e2 * vx e2 + vy e2 * vy e2)
      - t * (1 - t) * ((vx e2 - vx e1) * (vx e2 - vx e1) + (vy e2 - vy e1) * (vy e2 - vy e1))) by ring.
  rewrite E. pose proof (sqr_nonneg (vx e2 - vx e1)). pose proof (sqr_nonneg (vy e2 - vy e1)). nra.
Qed.

(** Points of the outline of a moved polygon are the moved points of the outline. *)
Lemma outline_move x y yaw fp q : on_outline (move x y yaw fp) q -> exists q0, on_outline fp q0 /\ q = move1 x y yaw q0.
Proof.
  intros (e & I & t & T & ->). unfold move in I. rewrite edges_map in I. apply in_map_iff in I as ([e1 e2] & <- & I). cbn [fst snd].
  exists (V2 (vx e1 + t * (vx e2 - vx e1)) (vy e1 + t * (vy e2 - vy e1))). split; [exists (e1, e2); split; [assumption|exists t; split; [assumption|reflexivity]]|].
  unfold move1. cbn [vx vy]. f_equal; ring.
Qed.
Lemma rot_norm yaw v : norm2 (move1 0 0 yaw v) = norm2 v.
Proof. unfold norm2, move1. cbn. pose proof (sin2_cos2 yaw) as S. unfold Rsqr in S. assert (E : cos yaw * cos yaw = 1 - sin yaw * sin yaw) by lra. ring_simplify. replace (cos yaw ^ 2) with (1 - sin yaw ^ 2) by (cbn; lra). ring. Qed.

(** If the moved footprint comes within [m] of the origin then its offset is below radius + m. *)
Lemma offset_bound x y v m r : 0 <= m -> sqrt (norm2 v) <= r -> vdist (V2 0 0) (V2 (vx v + x) (vy v + y)) < m -> Rabs x < r + m.
Proof.
  intros M R D. assert (0 <= norm2 v) by (unfold norm2; nra).
  assert (A : Rabs (vx v) <= r).
  { rewrite <- sqrt_Rsqr_abs. apply Rle_trans with (2 := R). apply sqrt_le_1_alt. unfold norm2, Rsqr. pose proof (sqr_nonneg (vy v)). lra. }
  assert (B : Rabs (vx v + x) < m).
  { rewrite <- sqrt_Rsqr_abs. apply Rle_lt_trans with (2 := D). apply sqrt_le_1_alt. unfold Rsqr. cbn [vx vy]. pose proof (sqr_nonneg (0 - (vy v + y))). lra. }
  unfold Rabs in *. destruct (Rcase_abs x), (Rcase_abs (vx v)), (Rcase_abs (vx v + x)); lra.
Qed.

Lemma ceil_spec r : r <= IZR (ceil r).
Proof. unfold ceil. rewrite opp_IZR. destruct (base_Int_part (- r)) as [A _]. lra. Qed.
Lemma ceil_bound c fp x : 0 < lin_res c -> Rabs (IZR x * lin_res c) <= radius fp + expand c + spread c -> (Z.abs x <= range_max c fp)%Z.
Proof.
  intros R H. apply le_IZR. rewrite abs_IZR. rewrite Rabs_mult, (Rabs_right (lin_res c)) in H by lra. unfold range_max.
  apply Rle_trans with (2 := ceil_spec _). apply (Rmult_le_reg_r (lin_res c)); [assumption|]. unfold Rdiv. rewrite Rmult_assoc, Rinv_l by lra. lra.
Qed.

(** C58: the template is large enough.  For a robot cell outside its range the origin is not inside the placed footprint and no
    point of its outline is within expand + spread. *)
Theorem C58_template_range_suffices c pts fp x y yaw : good_params c -> polygon_of pts = Some fp ->
  (range_max c fp < Z.abs x \/ range_max c fp < Z.abs y)%Z ->
  inside (placed c fp x y yaw) (V2 0 0) = Ok false /\ forall q, on_outline (placed c fp x y yaw) q -> expand c + spread c <= vdist (V2 0 0) q.
Proof.
  intros (E0 & S0 & _ & R0 & _) F O. set (X := IZR x * lin_res c). set (Y := IZR y * lin_res c). set (th := IZR yaw * ang_res c).
  assert (B : Rabs X <= radius fp + expand c + spread c -> Rabs Y <= radius fp + expand c + spread c -> False).
  { intros HX HY. apply (ceil_bound c fp x R0) in HX. apply (ceil_bound c fp y R0) in HY. lia. }
  assert (MV : forall v, move1 X Y th v = V2 (vx (move1 0 0 th v) + X) (vy (move1 0 0 th v) + Y)) by (intros v; unfold move1; cbn; f_equal; ring).
  split.
  - pose proof F as F'. apply polygon_of_close in F' as [-> L].
    assert (P : polygon_of (map (move1 X Y th) pts) = Some (placed c (close pts) x y yaw)).
    { rewrite polygon_of_some by (rewrite map_length; assumption). f_equal. unfold placed, move. fold X Y th. destruct pts as [|v l]; [reflexivity|]. cbn. rewrite map_app. reflexivity. }
    destruct (inside (placed c (close pts) x y yaw) (V2 0 0)) as [[]|] eqn:I; [exfalso|reflexivity|].
    + destruct (C32_inside_points_are_within_the_hull _ _ _ X Y P I) as (v & Hv & N). cbn [vx vy] in N. apply in_map_iff in Hv as (v0 & <- & Hv).
      rewrite MV in N. cbn [vx vy] in N. set (w := move1 0 0 th v0) in *.
      assert (NW : sqrt (norm2 w) <= radius (close pts)).
      { unfold w. rewrite rot_norm. apply (radius_spec (close pts)). destruct pts as [|u l]; [destruct Hv|]. change (close (u :: l)) with ((u :: l) ++ [u]). apply in_or_app. left. assumption. }
      set (r := radius (close pts)) in *. assert (R1 : 0 <= r) by (apply radius_spec).
      assert (N2 : norm2 w <= r * r).
      { assert (0 <= norm2 w) by (unfold norm2; nra). rewrite <- (sqrt_sqrt (norm2 w)) by assumption. apply Rmult_le_compat; auto using sqrt_pos. }
      unfold norm2 in N2.
      (* |(X,Y)|^2 <= -(X,Y).w <= |(X,Y)| r, so |(X,Y)| <= r *)
      assert (Q : X * X + Y * Y <= r * r).
      { pose proof (sqr_nonneg (X * vy w - Y * vx w)).
        assert (CS : (X * vx w + Y * vy w) * (X * vx w + Y * vy w) <= (X * X + Y * Y) * (r * r)).
        { assert ((X * vx w + Y * vy w) * (X * vx w + Y * vy w) + (X * vy w - Y * vx w) * (X * vy w - Y * vx w) = (X * X + Y * Y) * (vx w * vx w + vy w * vy w)) by ring.
          assert (0 <= (X * X + Y * Y) * (r * r - (vx w * vx w + vy w * vy w))) by (apply Rmult_le_pos; [nra|lra]). lra. }
        set (Q := X * X + Y * Y) in *. assert (Q0 : 0 <= Q) by (unfold Q; nra). assert (D : Q <= - (X * vx w + Y * vy w)) by (unfold Q; lra).
        set (k := - (X * vx w + Y * vy w)) in *. assert (Q * Q <= Q * (r * r)).
        { apply Rle_trans with (k * k); [apply Rmult_le_compat; lra|]. unfold k. lra. }
        destruct (Req_dec Q 0) as [->|]; [nra|]. apply (Rmult_le_reg_l Q); [lra|assumption]. }
      assert (A : forall z, z * z <= r * r -> Rabs z <= r).
      { intros z Hz. rewrite <- sqrt_Rsqr_abs, <- (sqrt_square r) by assumption. apply sqrt_le_1_alt. exact Hz. }
      apply B; [assert (Rabs X <= r) by (apply A; nra)|assert (Rabs Y <= r) by (apply A; nra)]; lra.
    + rewrite inside_count in I; [discriminate|]. destruct pts as [|v l]; [cbn in L; lia|]. unfold placed, move. cbn. discriminate.
  - intros q Hq. apply Rnot_lt_le. intros D. unfold placed in Hq. fold X Y th in Hq. apply outline_move in Hq as (q0 & O0 & ->). rewrite MV in D.
    assert (NW : sqrt (norm2 (move1 0 0 th q0)) <= radius fp) by (rewrite rot_norm; apply norm_le_radius; exact O0).
    set (w := move1 0 0 th q0) in *.
    apply B.
    + assert (Rabs X < radius fp + (expand c + spread c)) by (apply (offset_bound X Y w); [lra|assumption|assumption]). lra.
    + assert (Rabs Y < radius fp + (expand c + spread c)); [|lra]. apply (offset_bound Y X (V2 (vy w) (vx w))); [lra| |].
      * unfold norm2 in *. cbn [vx vy]. rewrite Rplus_comm. assumption.
      * unfold vdist in *. cbn [vx vy] in *. rewrite Rplus_comm. assumption.
Qed.

Definition is_centre_of_point (fp : list vec2) (x y : Z) : Prop := radius fp = 0 /\ x = 0%Z /\ y = 0%Z.

Lemma template_ok c fp x y yaw : fp <> [] -> exists v, template_cell c fp x y yaw = Ok v.
Proof.
  intros N. unfold template_cell. cbv zeta. fold (placed c fp x y yaw).
  assert (M : placed c fp x y yaw <> []) by (unfold placed, move; destruct fp; [congruence|cbn; discriminate]).
  rewrite inside_count by assumption. cbn [bind]. destruct (Nat.odd _); [eexists; reflexivity|].
  destruct (pdist_spec (placed c fp x y yaw) (V2 0 0) M) as (d & E & _). rewrite E. cbn [bind]. eexists; reflexivity.
Qed.

(** C58: cost of a template cell in terms of the placed footprint: 100 if the origin is covered or closer than the expansion;
    falling linearly from 100 to the minimum cost over the spread (rounded down); 0 beyond. *)
Theorem C58_template_cost_follows_the_distance c pts fp x y yaw D : good_params c -> polygon_of pts = Some fp ->
  outline_distance (placed c fp x y yaw) D ->
  exists b v, inside (placed c fp x y yaw) (V2 0 0) = Ok b /\ template_cell c fp x y yaw = Ok v /\ (0 <= v <= 100)%Z /\
    (b = true -> v = 100%Z) /\ (is_centre_of_point fp x y -> v = 100%Z) /\
    (b = false -> ~ is_centre_of_point fp x y ->
       (D < expand c -> v = 100%Z) /\
       (expand c <= D < expand c + spread c ->
          (min_cost c <= v)%Z /\ IZR v <= 100 - (D - expand c) / spread c * (100 - IZR (min_cost c)) < IZR v + 1) /\
       (expand c + spread c <= D -> v = min_cost c \/ v = 0%Z) /\
       (expand c + spread c + lin_res c / 100 <= D -> v = 0%Z)).
Proof.
  intros (E0 & S0 & C0 & R0 & FM) F (D1 & qq & D2 & D3).
  assert (Nf : fp <> []) by (apply polygon_of_close in F as [-> L]; apply close_nonempty; intros E; rewrite E in L; cbn in L; lia).
  assert (M : placed c fp x y yaw <> []) by (unfold placed, move; destruct fp; [congruence|cbn; discriminate]).
  destruct (pdist_spec (placed c fp x y yaw) (V2 0 0) M) as (d & Ed & P1 & P2 & P3).
  assert (DD : d = D \/ (d = FLT_MAX /\ FLT_MAX <= D)).
  { pose proof (P2 qq D2) as Q1. rewrite <- D3 in Q1. destruct P3 as [->|(q & Hq & ->)]; [right; split; [reflexivity|assumption]|].
    left. pose proof (D1 q Hq). lra. }
  exists (Nat.odd (count (V2 0 0) (edges (placed c fp x y yaw)))).
  unfold template_cell. cbv zeta. fold (placed c fp x y yaw). rewrite inside_count by assumption. cbn [bind]. set (b := Nat.odd _).
  set (t := (if Req_EM_T (radius fp) 0 then true else false) && (x =? 0)%Z && (y =? 0)%Z).
  assert (T : t = true <-> is_centre_of_point fp x y).
  { unfold t, is_centre_of_point. rewrite !andb_true_iff, !Z.eqb_eq. destruct (Req_EM_T (radius fp) 0); intuition congruence. }
  set (lin := 100 - (d - expand c) * (100 - IZR (min_cost c)) / spread c).
  set (w := if Rltb d (expand c) then 100%Z else if Rltb d (expand c + spread c) then trunc_pos lin
    else if Rltb (Rabs (expand c + spread c - d)) (lin_res c / 100) then min_cost c else 0%Z).
  assert (M0 : 0 <= IZR (min_cost c)) by (apply (IZR_le 0); lia). assert (M1 : IZR (min_cost c) < 100) by (apply (IZR_lt _ 100); lia).
  assert (LIN : expand c <= d < expand c + spread c -> IZR (min_cost c) <= lin <= 100 /\ lin = 100 - (d - expand c) / spread c * (100 - IZR (min_cost c))).
  { intros [A B]. assert (SP : 0 < spread c) by lra. assert (EQ : lin = 100 - (d - expand c) / spread c * (100 - IZR (min_cost c))) by (unfold lin; field; lra).
    split; [|assumption]. rewrite EQ. set (k := (d - expand c) / spread c).
    assert (K : 0 <= k <= 1).
    { unfold k, Rdiv. split; [apply Rmult_le_pos; [lra|left; apply Rinv_0_lt_compat; assumption]|].
      apply (Rmult_le_reg_r (spread c)); [assumption|]. rewrite Rmult_assoc, Rinv_l by lra. lra. }
    split; nra. }
  assert (FLR : forall r, IZR (trunc_pos r) <= r < IZR (trunc_pos r) + 1).
  { intros r. unfold trunc_pos. destruct (base_Int_part r) as [U1 U2]. lra. }
  assert (LV : expand c <= d < expand c + spread c -> (min_cost c <= trunc_pos lin <= 100)%Z).
  { intros Hd. destruct (LIN Hd) as [[U1 U2] _]. pose proof (FLR lin) as [V1 V2]. split.
    - apply Z.lt_succ_r. apply lt_IZR. unfold Z.succ. rewrite plus_IZR. lra.
    - apply le_IZR. lra. }
  assert (WR : (0 <= w <= 100)%Z).
  { unfold w. destruct (Rltb d (expand c)) eqn:Q1; [lia|]. destruct (Rltb d (expand c + spread c)) eqn:Q2.
    - apply Rltb_iff in Q2. assert (~ d < expand c) by (rewrite <- Rltb_iff; congruence). specialize (LV ltac:(lra)). lia.
    - destruct (Rltb (Rabs (expand c + spread c - d)) (lin_res c / 100)); lia. }
  assert (G : (if b then Ok 100%Z else do d0 <- pdist (placed c fp x y yaw) (V2 0 0); Ok (if Rltb d0 (expand c) then 100%Z
        else if Rltb d0 (expand c + spread c) then trunc_pos (100 - (d0 - expand c) * (100 - IZR (min_cost c)) / spread c)
        else if Rltb (Rabs (expand c + spread c - d0)) (lin_res c / 100) then min_cost c else 0%Z)) = Ok (if b then 100%Z else w)).
  { destruct b; [reflexivity|]. rewrite Ed. reflexivity. }
  rewrite G. cbn [bind]. exists (if t then 100%Z else if b then 100%Z else w). split; [reflexivity|]. split; [reflexivity|].
  split; [destruct t, b; lia|]. split; [intros ->; destruct t; reflexivity|]. split; [intros H; apply T in H; rewrite H; reflexivity|].
  intros -> NC. assert (t = false) as -> by (apply not_true_is_false; rewrite T; assumption). cbv iota.
  assert (FM' : expand c + spread c + lin_res c / 100 <= FLT_MAX) by lra.
  assert (DL : forall m, m <= FLT_MAX -> (m <= D <-> m <= d)) by (intros m Hm; destruct DD as [-> | [-> HD]]; [tauto|split; intros; lra]).
  split; [|split; [|split]].
  - intros H. assert (d < expand c) by (apply Rnot_le_lt; intros X; apply DL in X; lra). unfold w. rewrite Rltb_true by assumption. reflexivity.
  - intros [H1 H2]. assert (d = D) as Q by (destruct DD as [|[_ ?]]; [assumption|lra]). rewrite <- Q in H1, H2 |- *. specialize (LV (conj H1 H2)). destruct (LIN (conj H1 H2)) as [_ LE].
    unfold w. rewrite Rltb_false by assumption. rewrite Rltb_true by assumption. rewrite <- LE. pose proof (FLR lin). split; [lia|lra].
  - intros H. apply DL in H; [|lra]. unfold w. rewrite !Rltb_false by lra. destruct (Rltb (Rabs (expand c + spread c - d)) (lin_res c / 100)); [left|right]; reflexivity.
  - intros H. apply DL in H; [|lra]. unfold w. rewrite !Rltb_false by lra. rewrite Rltb_false; [reflexivity|]. rewrite Rabs_left1 by lra. lra.
Qed.

(** ** Non-vacuity *)
Example tri : list vec2 := [V2 (-1) (-1); V2 2 0; V2 (-1) 1].
Example tri_convex : strictly_convex tri.
Proof.
  split; [cbn; lia|]. intros i k Hi Hk N1 N2. cbn [length tri] in *.
  destruct i as [|[|[|i]]]; [..|lia]; destruct k as [|[|[|k]]]; try lia; unfold turn, cross, vsub; cbn in N2 |- *; try lia; lra.
Qed.
Example tri_origin : inside (close tri) (V2 0 0) = Ok true.
Proof.
  apply (C32_convex_polygon_is_exact tri _ (V2 0 0) tri_convex eq_refl). intros p q (i & Hi & -> & ->). cbn [length tri] in Hi.
  destruct i as [|[|[|i]]]; [..|lia]; unfold turn, cross, vsub; cbn; lra.
Qed.
Example tri_outside : inside (close tri) (V2 2 1) = Ok false.
Proof.
  apply (C32_convex_polygon_is_exact tri _ (V2 2 1) tri_convex eq_refl). exists (V2 2 0), (V2 (-1) 1). split; [|unfold turn, cross, vsub; cbn; lra].
  exists 1%nat. split; [cbn; lia|]. split; reflexivity.
Qed.
Example c1 : params := Params 0.2 0.5 10 0.1 0.4.
Example c1_good : good_params c1.
Proof.
  unfold good_params, c1, FLT_MAX. cbn [expand spread min_cost lin_res]. split; [lra|]. split; [lra|]. split; [lia|]. split; [lra|].
  apply Rle_trans with 1; [lra|]. apply IZR_le. vm_compute. discriminate.
Qed.

(** The footprint placed two metres away has a distance, so the hypotheses of the cost theorem are met. *)
Example c1_distance : exists D, outline_distance (placed c1 (close tri) 20 0 0) D /\ 0 <= D.
Proof.
  destruct (pdist_spec (placed c1 (close tri) 20 0 0) (V2 0 0)) as (d & _ & _ & P2 & P3); [discriminate|].
  assert (O : on_outline (placed c1 (close tri) 20 0 0) (V2 1 (-1))).
  { exists (move1 (20 * 0.1) (0 * 0.1) (0 * 0.4) (V2 (-1) (-1)), move1 (20 * 0.1) (0 * 0.1) (0 * 0.4) (V2 2 0)). split; [left; reflexivity|].
    exists 0. split; [lra|]. unfold move1. cbn. replace (0 * 0.4) with 0 by ring. rewrite cos_0, sin_0. f_equal; lra. }
  destruct P3 as [->|(q & Hq & E)].
  - exfalso. specialize (P2 _ O). assert (vdist (V2 0 0) (V2 1 (-1)) <= 2).
    { unfold vdist. cbn. rewrite <- (sqrt_square 2) by lra. apply sqrt_le_1_alt. lra. }
    assert (3 <= FLT_MAX) by (apply IZR_le; vm_compute; discriminate). lra.
  - exists d. split; [split; [assumption|exists q; split; assumption]|]. rewrite E. apply vdist_nonneg.
Qed.

Print Assumptions C32_any_start_vertex.
Print Assumptions C32_any_orientation.
Print Assumptions C32_translation.
Print Assumptions C32_rectangle_is_exact.
Print Assumptions C32_inside_points_are_within_the_hull.
Print Assumptions C32_convex_polygon_is_exact.
Print Assumptions C32_rotation_invariance_refuted.
Print Assumptions C58_distance_to_an_edge_is_the_least_distance.
Print Assumptions C58_template_range_suffices.
Print Assumptions C58_template_cost_follows_the_distance.
