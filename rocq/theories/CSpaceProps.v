(** C21, C22: regions and addressing of the layered costmap. *)
From Verif Require Import Common CSpace.
Local Open Scope Z_scope.

Lemma in_rangeb_iff lo v hi : in_rangeb lo v hi = true <-> lo <= v < hi.
Proof. unfold in_rangeb. rewrite andb_true_iff, Z.leb_le, Z.ltb_lt. tauto. Qed.

(** ** Addresses *)
Lemma mul_cancel_lt a b w x x' : 0 <= x < w -> 0 <= x' < w -> a * w + x = b * w + x' -> a = b /\ x = x'.
Proof.
  intros Hx Hx' E.
  assert (a = b).
  { assert ((a * w + x) / w = (b * w + x') / w) as E2 by (f_equal; exact E).
    rewrite !Z.div_add_l, !Z.div_small in E2 by lia. lia. }
  subst. lia.
Qed.

Lemma address_inj m c c' : in_map m c -> in_map m c' ->
  (let '(x, y, a) := c in address m x y a) = (let '(x, y, a) := c' in address m x y a) -> c = c'.
Proof.
  destruct c as [[x y] a], c' as [[x' y'] a']. cbn. unfold address. intros (Hx & Hy & Ha) (Hx' & Hy' & Ha') E.
  apply mul_cancel_lt in E; [|lia|lia]. destruct E as [E ->].
  apply mul_cancel_lt in E; [|lia|lia]. destruct E as [-> ->]. reflexivity.
Qed.

Lemma address_bounds m x y a : in_map m (x, y, a) -> 0 <= address m x y a < cw m * ch m * ca m.
Proof.
  cbn. unfold address. intros (Hx & Hy & Ha).
  assert (0 <= a * ch m + y) by nia. assert (a * ch m + y + 1 <= ch m * ca m) by nia.
  split; [nia|]. assert ((a * ch m + y + 1) * cw m <= ch m * ca m * cw m) by nia. nia.
Qed.

Lemma assert_iff m x y a : wf m -> assert_cell m x y a = true <-> in_map m (x, y, a).
Proof.
  intros (W & H & A & L). unfold assert_cell. rewrite !andb_true_iff, !in_rangeb_iff, L. cbn. split; [tauto|].
  intros Hc. pose proof (address_bounds m x y a Hc). tauto.
Qed.

(** ** Lists *)
Lemma replace_nth_length n v l : length (replace_nth n v l) = length l.
Proof. revert n; induction l; intros [|n]; cbn; auto. Qed.
Lemma nth_replace n v l k d : (n < length l)%nat -> nth k (replace_nth n v l) d = if Nat.eqb k n then v else nth k l d.
Proof.
  revert n k; induction l as [|a l IH]; intros [|n] [|k] H; cbn in *; try lia; auto.
  apply IH. lia.
Qed.

Lemma blit_spec dst doff src soff n : 0 <= n -> 0 <= doff -> doff + n <= Z.of_nat (length dst) ->
  0 <= soff -> soff + n <= Z.of_nat (length src) ->
  exists d, blit dst doff src soff n = Ok d /\ length d = length dst /\
    forall k e, (k < length dst)%nat -> nth k d e =
      if (Z.to_nat doff <=? k)%nat && (k <? Z.to_nat (doff + n))%nat then nth (k - Z.to_nat doff + Z.to_nat soff) src e else nth k dst e.
Proof.
  intros Hn Hd Hdl Hs Hsl. eexists. unfold blit. split.
  { rewrite !(proj2 (Z.leb_le _ _)) by assumption. reflexivity. }
  assert (L1 : length (firstn (Z.to_nat doff) dst) = Z.to_nat doff) by (rewrite firstn_length; lia).
  assert (L2 : length (firstn (Z.to_nat n) (skipn (Z.to_nat soff) src)) = Z.to_nat n) by (rewrite firstn_length, skipn_length; lia).
  split.
  - rewrite !app_length, L1, L2, skipn_length. lia.
  - intros k e Hk. destruct (Nat.leb_spec (Z.to_nat doff) k); cbn [andb].
    + rewrite app_nth2 by lia. rewrite L1. destruct (Nat.ltb_spec k (Z.to_nat (doff + n))).
      * rewrite app_nth1 by lia. 
        rewrite <- (firstn_skipn (Z.to_nat soff) src) at 2.
        rewrite app_nth2; rewrite firstn_length, Nat.min_l by lia; [|lia].
        replace (k - Z.to_nat doff + Z.to_nat soff - Z.to_nat soff)%nat with (k - Z.to_nat doff)%nat by lia.
        rewrite <- (firstn_skipn (Z.to_nat n) (skipn (Z.to_nat soff) src)) at 2.
        rewrite app_nth1 by lia. reflexivity.
      * rewrite app_nth2 by lia. rewrite L2.
        rewrite <- (firstn_skipn (Z.to_nat (doff + n)) dst) at 2.
        rewrite app_nth2; rewrite firstn_length, Nat.min_l by lia; [|lia]. f_equal. lia.
    + rewrite app_nth1 by lia. rewrite <- (firstn_skipn (Z.to_nat doff) dst) at 2. rewrite app_nth1 by lia. reflexivity.
Qed.

(** ** Single cell access *)
Definition cell_eqb (c c' : cell) : bool :=
  let '(x, y, a) := c in let '(x', y', a') := c' in (x =? x') && (y =? y') && (a =? a').
Lemma cell_eqb_iff c c' : cell_eqb c c' = true <-> c = c'.
Proof.
  destruct c as [[x y] a], c' as [[x' y'] a']. cbn. rewrite !andb_true_iff, !Z.eqb_eq. split.
  - intros [[-> ->] ->]. reflexivity.
  - intros E. injection E as -> -> ->. auto.
Qed.

Lemma getc_ok m x y a : wf m -> in_map m (x, y, a) -> getc m x y a = Ok (peek m (x, y, a)).
Proof. intros W I. unfold getc. rewrite (proj2 (assert_iff m x y a W) I). reflexivity. Qed.

Lemma setc_ok m x y a v : wf m -> in_map m (x, y, a) ->
  exists m', setc m x y a v = Ok m' /\ wf m' /\ same_dims m m' /\
    forall c, in_map m c -> peek m' c = if cell_eqb c (x, y, a) then v else peek m c.
Proof.
  intros W I. unfold setc. rewrite (proj2 (assert_iff m x y a W) I). eexists. split; [reflexivity|].
  split; [|split].
  - destruct W as (? & ? & ? & L). unfold wf. cbn. rewrite replace_nth_length. auto.
  - repeat split.
  - intros c Hc. destruct c as [[x' y'] a']. unfold peek. unfold address at 1. cbn [cw ch ca cdata].
    fold (address m x' y' a').
    pose proof (address_bounds m x y a I) as B1. pose proof (address_bounds m x' y' a' Hc) as B2.
    destruct W as (? & ? & ? & L).
    rewrite nth_replace by lia.
    destruct (cell_eqb (x', y', a') (x, y, a)) eqn:E.
    + apply cell_eqb_iff in E. injection E as -> -> ->. rewrite Nat.eqb_refl. reflexivity.
    + destruct (Nat.eqb_spec (Z.to_nat (address m x' y' a')) (Z.to_nat (address m x y a))) as [E2|]; auto.
      assert (address m x' y' a' = address m x y a) as E3 by lia.
      pose proof (address_inj m (x', y', a') (x, y, a) Hc I E3) as E4. apply cell_eqb_iff in E4. congruence.
Qed.

(** * C22 *)

(** Different cells of a costmap message have different addresses, all inside
    the data array. *)
Theorem C22_costmap_cells_do_not_alias m x y a x' y' a' : wf m ->
  in_map m (x, y, a) -> in_map m (x', y', a') ->
  0 <= address m x y a < Z.of_nat (length (cdata m)) /\
  (address m x y a = address m x' y' a' -> x = x' /\ y = y' /\ a = a').
Proof.
  intros (? & ? & ? & L) I I'. rewrite L. split; [apply address_bounds, I|].
  intros E. pose proof (address_inj m _ _ I I' E) as E2. injection E2. auto.
Qed.

(** Reading gives the cell's cost; writing changes that cell only; access
    outside the map is rejected. *)
Theorem C22_costmap_write m x y a v : wf m ->
  (in_map m (x, y, a) ->
     getc m x y a = Ok (peek m (x, y, a)) /\
     exists m', setc m x y a v = Ok m' /\ wf m' /\ same_dims m m' /\ getc m' x y a = Ok v /\
       forall x' y' a', (x', y', a') <> (x, y, a) -> getc m' x' y' a' = getc m x' y' a') /\
  (~ in_map m (x, y, a) -> getc m x y a = UB /\ setc m x y a v = UB).
Proof.
  intros W. split.
  - intros I. split; [apply getc_ok; assumption|].
    destruct (setc_ok m x y a v W I) as (m' & E & W' & D & P). exists m'. repeat (split; [assumption|]).
    assert (IM : forall c, in_map m' c <-> in_map m c).
    { intros [[x' y'] a']. destruct D as (D1 & D2 & D3). cbn. rewrite D1, D2, D3. tauto. }
    split.
    + rewrite getc_ok, P; [|assumption|assumption|apply IM; assumption].
      rewrite (proj2 (cell_eqb_iff _ _) eq_refl). reflexivity.
    + intros x' y' a' N.
      destruct (assert_cell m x' y' a') eqn:A.
      * apply (assert_iff m x' y' a' W) in A. rewrite !getc_ok, P by (first [assumption | apply (IM (x', y', a')); assumption]).
        destruct (cell_eqb (x', y', a') (x, y, a)) eqn:E2; [apply cell_eqb_iff in E2; congruence|reflexivity].
      * unfold getc. rewrite A. destruct (assert_cell m' x' y' a') eqn:A'; auto.
        apply (assert_iff m' x' y' a' W') in A'. apply (IM (x', y', a')) in A'. apply (assert_iff m x' y' a' W) in A'. congruence.
  - intros N. unfold getc, setc. destruct (assert_cell m x y a) eqn:A; auto. apply assert_iff in A; tauto.
Qed.

(** The same for the template: cells with offsets in range. *)
Definition in_cache (k : cache) (x y a : Z) : Prop := - kx k <= x <= kx k /\ - ky k <= y <= ky k /\ 0 <= a < ka k.
Definition cache_wf (k : cache) : Prop :=
  0 <= kx k /\ 0 <= ky k /\ Z.of_nat (length (kdata k)) = (kx k * 2 + 1) * (ky k * 2 + 1) * ka k.

Lemma cache_bounds k x y a : in_cache k x y a ->
  0 <= cache_addr k x y a < (kx k * 2 + 1) * (ky k * 2 + 1) * ka k.
Proof.
  unfold in_cache, cache_addr. intros (Hx & Hy & Ha).
  set (w := kx k * 2 + 1) in *. set (h := ky k * 2 + 1) in *.
  assert (0 <= (y + ky k) * w + (x + kx k) < w * h) by (subst w h; nia).
  assert (0 <= a * (w * h)) by (subst w h; nia). assert (a * (w * h) + w * h <= w * h * ka k) by (subst w h; nia). lia.
Qed.
Lemma cache_inj k x y a x' y' a' : in_cache k x y a -> in_cache k x' y' a' ->
  cache_addr k x y a = cache_addr k x' y' a' -> x = x' /\ y = y' /\ a = a'.
Proof.
  unfold in_cache, cache_addr. intros (Hx & Hy & Ha) (Hx' & Hy' & Ha') E.
  set (w := kx k * 2 + 1) in *. set (h := ky k * 2 + 1) in *.
  assert (E1 : (a * h + (y + ky k)) * w + (x + kx k) = (a' * h + (y' + ky k)) * w + (x' + kx k)) by nia.
  apply mul_cancel_lt in E1; [|lia|lia]. destruct E1 as [E1 Ex].
  apply mul_cancel_lt in E1; [|lia|lia]. lia.
Qed.

Theorem C22_template_cells_do_not_alias k x y a : cache_wf k -> in_cache k x y a -> forall v,
  exists k', cache_set k x y a v = Ok k' /\ cache_wf k' /\ cache_get k' x y a = Ok v /\
    forall x' y' a', in_cache k x' y' a' -> (x', y', a') <> (x, y, a) ->
      exists u, cache_get k x' y' a' = Ok u /\ cache_get k' x' y' a' = Ok u.
Proof.
  intros (Hx & Hy & L) I v.
  assert (A : forall x y a, in_cache k x y a -> cache_assert k x y a = true).
  { intros x0 y0 a0 I0. unfold cache_assert. apply in_rangeb_iff. rewrite L. apply cache_bounds, I0. }
  pose proof (cache_bounds k x y a I) as B.
  unfold cache_set. rewrite (A _ _ _ I). eexists. split; [reflexivity|].
  set (k' := Cache _ _ _ _).
  assert (Aeq : forall x y a, cache_assert k' x y a = cache_assert k x y a).
  { intros. unfold cache_assert, k'. cbn. rewrite replace_nth_length. reflexivity. }
  split; [unfold cache_wf, k'; cbn; rewrite replace_nth_length; auto|]. unfold cache_get. rewrite Aeq, (A _ _ _ I). split.
  - f_equal. change (cache_addr k' x y a) with (cache_addr k x y a). unfold k'. cbn [kdata].
    rewrite nth_replace by lia. rewrite Nat.eqb_refl. reflexivity.
  - intros x' y' a' I' N. rewrite Aeq, (A _ _ _ I'). eexists. split; [reflexivity|]. f_equal.
    change (cache_addr k' x' y' a') with (cache_addr k x' y' a'). unfold k'. cbn [kdata].
    pose proof (cache_bounds k x' y' a' I').
    rewrite nth_replace by lia.
    destruct (Nat.eqb_spec (Z.to_nat (cache_addr k x' y' a')) (Z.to_nat (cache_addr k x y a))) as [E|]; auto.
    destruct (cache_inj k x' y' a' x y a I' I ltac:(lia)) as (-> & -> & ->). congruence.
Qed.
Theorem C22_template_reset_is_zero x y yaw : 0 <= x -> 0 <= y -> 0 <= yaw ->
  cache_wf (cache_reset x y yaw) /\
  forall i j a, in_cache (cache_reset x y yaw) i j a -> cache_get (cache_reset x y yaw) i j a = Ok 0.
Proof.
  intros Hx Hy Ha. assert (W : cache_wf (cache_reset x y yaw)).
  { unfold cache_wf. cbn. rewrite repeat_length, Z2Nat.id by nia. auto. }
  split; [exact W|]. intros i j a I. destruct W as (_ & _ & L). unfold cache_get, cache_assert.
  rewrite (proj2 (in_rangeb_iff _ _ _)) by (rewrite L; apply cache_bounds, I).
  cbn [kdata cache_reset]. f_equal. apply nth_repeat.
Qed.

Example C22_example : let m := Cmap 2 3 2 (map Z.of_nat (seq 0 12)) in
  wf m /\ in_map m (1, 2, 1) /\ getc m 1 2 1 = Ok 11 /\ getc m 0 1 1 = Ok 8 /\ getc m 2 0 0 = UB.
Proof. cbv. intuition congruence. Qed.
Example C22_template_example : let k := cache_reset 1 1 2 in
  cache_wf k /\ in_cache k (-1) 1 1 /\ exists k', cache_set k (-1) 1 1 7 = Ok k' /\ cache_get k' (-1) 1 1 = Ok 7 /\ cache_get k' 1 0 1 = Ok 0.
Proof.
  cbv zeta. split; [cbv; intuition congruence|]. split; [cbv; intuition congruence|].
  eexists. split; [vm_compute; reflexivity|]. split; vm_compute; reflexivity.
Qed.

(** * C21 *)

Lemma zero_size_false r : sized r -> zero_size r = false <-> 0 < rw r /\ 0 < rh r /\ 0 < ra r.
Proof. intros (? & ? & ?). unfold zero_size. rewrite !orb_false_iff, !Z.eqb_neq. lia. Qed.
Lemma zero_size_true r c : sized r -> zero_size r = true -> ~ in_region r c.
Proof.
  intros (? & ? & ?). unfold zero_size. rewrite !orb_true_iff, !Z.eqb_eq. destruct c as [[x y] a]. cbn. lia.
Qed.

Lemma merge_bounds t r : zero_size t = false -> zero_size r = false ->
  let m := merge t r in
  rx m = Z.min (rx t) (rx r) /\ ry m = Z.min (ry t) (ry r) /\ rz m = Z.min (rz t) (rz r) /\
  rx m + rw m = Z.max (rx t + rw t) (rx r + rw r) /\ ry m + rh m = Z.max (ry t + rh t) (ry r + rh r) /\
  rz m + ra m = Z.max (rz t + ra t) (rz r + ra r) /\ rstamp m = Z.max (rstamp t) (rstamp r).
Proof.
  intros E1 E2. unfold merge. rewrite E1, E2. cbn [rx ry rz rw rh ra rstamp].
  repeat match goal with |- context [?a <? ?b] => destruct (Z.ltb_spec a b) end; lia.
Qed.

(** [merge t r] contains both regions, and is contained in every box that
    contains both. *)
Theorem C21_merge_is_the_bounding_box t r : sized t -> sized r ->
  sized (merge t r) /\
  (forall c, in_region t c \/ in_region r c -> in_region (merge t r) c) /\
  (forall b, (forall c, in_region t c \/ in_region r c -> in_region b c) -> forall c, in_region (merge t r) c -> in_region b c).
Proof.
  intros St Sr. destruct (zero_size r) eqn:Er.
  { assert (M : merge t r = t) by (unfold merge; rewrite Er; reflexivity). rewrite M. split; [exact St|]. split.
    - intros c [H|H]; auto. exfalso. eapply zero_size_true; eauto.
    - intros b H c Hc. apply H. auto. }
  destruct (zero_size t) eqn:Et.
  { assert (M : merge t r = r) by (unfold merge; rewrite Er, Et; reflexivity). rewrite M. split; [exact Sr|]. split.
    - intros c [H|H]; auto. exfalso. eapply (zero_size_true t); eauto.
    - intros b H c Hc. apply H. auto. }
  pose proof (merge_bounds t r Et Er) as B. cbv zeta in B.
  apply zero_size_false in Et, Er; auto.
  set (m := merge t r) in *. split; [|split].
  - unfold sized. lia.
  - intros [[x y] a]. cbn. lia.
  - intros b H [[x y] a] Hc. cbn in Hc.
    pose proof (H (rx t, ry t, rz t) ltac:(left; cbn; lia)) as H1.
    pose proof (H (rx t + rw t - 1, ry t + rh t - 1, rz t + ra t - 1) ltac:(left; cbn; lia)) as H2.
    pose proof (H (rx r, ry r, rz r) ltac:(right; cbn; lia)) as H3.
    pose proof (H (rx r + rw r - 1, ry r + rh r - 1, rz r + ra r - 1) ltac:(right; cbn; lia)) as H4.
    cbn in H1, H2, H3, H4 |- *. lia.
Qed.

(** The merged time stamp is the later one (of two regions that are not empty). *)
Theorem C21_merge_stamp t r : sized t -> sized r ->
  (exists c, in_region t c) -> (exists c, in_region r c) -> rstamp (merge t r) = Z.max (rstamp t) (rstamp r).
Proof.
  intros St Sr (c1 & H1) (c2 & H2).
  destruct (zero_size t) eqn:Et; [exfalso; apply (zero_size_true t c1 St Et H1)|].
  destruct (zero_size r) eqn:Er; [exfalso; apply (zero_size_true r c2 Sr Er H2)|].
  destruct (merge_bounds t r Et Er) as (_ & _ & _ & _ & _ & _ & E). exact E.
Qed.

Lemma normalize_spec r fw fh : 0 <= fw -> 0 <= fh -> let n := normalize r fw fh in
  0 <= rx n /\ 0 <= ry n /\ 0 <= rw n /\ 0 <= rh n /\ (0 < rw n -> rx n + rw n <= fw) /\ (0 < rh n -> ry n + rh n <= fh) /\
  rz n = rz r /\ ra n = ra r /\ rstamp n = rstamp r /\
  (forall x, rx n <= x < rx n + rw n <-> rx r <= x < rx r + rw r /\ 0 <= x < fw) /\
  (forall y, ry n <= y < ry n + rh n <-> ry r <= y < ry r + rh r /\ 0 <= y < fh).
Proof.
  intros Hw Hh. unfold normalize.
  destruct (Z.ltb_spec (rx r) 0), (Z.ltb_spec (ry r) 0); cbn [rx ry rz rw rh ra rstamp];
  repeat match goal with |- context [if ?a <? ?b then _ else _] =>
    lazymatch a with context [if _ then _ else _] => fail | _ =>
    lazymatch b with context [if _ then _ else _] => fail | _ => destruct (Z.ltb_spec a b) end end end;
  repeat split; intros; lia.
Qed.

(** Normalising keeps exactly the part of the region inside the map. *)
Theorem C21_normalize_is_the_part_inside r fw fh : 0 <= fw -> 0 <= fh ->
  (sized r -> sized (normalize r fw fh)) /\
  forall x y a, in_region (normalize r fw fh) (x, y, a) <->
    in_region r (x, y, a) /\ 0 <= x < fw /\ 0 <= y < fh.
Proof.
  intros Hw Hh. destruct (normalize_spec r fw fh Hw Hh) as (A1 & A2 & A3 & A4 & _ & _ & B1 & B2 & _ & C1 & C2).
  split.
  - unfold sized. lia.
  - intros x y a. cbn. rewrite C1, C2, B1, B2. tauto.
Qed.

Theorem C21_expand r ex : 0 <= ex -> forall x y a,
  in_region (expand r ex) (x, y, a) <->
  (rx r - ex <= x < rx r + rw r + ex /\ ry r - ex <= y < ry r + rh r + ex /\ rz r <= a < rz r + ra r).
Proof. intros. unfold in_region, expand. cbn [rx ry rz rw rh ra]. lia. Qed.

(** ** bitblt *)
Lemma same_dims_in_map m m' c : same_dims m m' -> in_map m c <-> in_map m' c.
Proof. intros (A & B & C). destruct c as [[x y] a]. cbn. rewrite A, B, C. tauto. Qed.
Lemma same_dims_trans a b c : same_dims a b -> same_dims b c -> same_dims a c.
Proof. unfold same_dims. intuition congruence. Qed.
Lemma same_dims_refl a : same_dims a a. Proof. repeat split. Qed.
Lemma same_dims_sym a b : same_dims a b -> same_dims b a.
Proof. unfold same_dims. intuition congruence. Qed.

(** One row. *)
Lemma row_copy d s x y a len : wf d -> wf s -> same_dims d s -> 0 <= x -> 0 < len -> x + len <= cw s ->
  0 <= y < ch s -> 0 <= a < ca s ->
  exists data, blit (cdata d) (address d x y a) (cdata s) (address s x y a) len = Ok data /\
    let d' := Cmap (cw d) (ch d) (ca d) data in wf d' /\
    forall c, in_map d c -> peek d' c =
      if (let '(x', y', a') := c in in_rangeb x x' (x + len) && (y' =? y) && (a' =? a))%bool then peek s c else peek d c.
Proof.
  intros Wd Ws (D1 & D2 & D3) Hx Hl Hxl Hy Ha.
  assert (AE : forall u v w, address d u v w = address s u v w) by (intros; unfold address; congruence).
  destruct Wd as (d1 & d2 & d3 & Ld). destruct Ws as (s1 & s2 & s3 & Ls).
  assert (B1 : 0 <= address s x y a) by (unfold address; nia).
  assert (B2 : address s x y a + len <= cw s * ch s * ca s).
  { assert (address s x y a + len <= (a * ch s + y + 1) * cw s) by (unfold address; nia).
    assert ((a * ch s + y + 1) <= ch s * ca s) by nia. nia. }
  rewrite AE.
  destruct (blit_spec (cdata d) (address s x y a) (cdata s) (address s x y a) len ltac:(lia) B1 ltac:(nia) B1 ltac:(nia)) as (data & E & L & P).
  exists data. split; [exact E|]. cbv zeta. split.
  - unfold wf. cbn. rewrite L. auto.
  - intros [[x' y'] a'] I. unfold peek. unfold address at 1. cbn [cw ch ca cdata].
    fold (address d x' y' a').
    pose proof (address_bounds d x' y' a' I) as B. rewrite P by lia. rewrite AE in *.
    destruct (in_rangeb x x' (x + len) && (y' =? y) && (a' =? a))%bool eqn:C.
    + rewrite !andb_true_iff, in_rangeb_iff, !Z.eqb_eq in C. destruct C as ((Cx & ->) & ->).
      rewrite (proj2 (Nat.leb_le _ _)), (proj2 (Nat.ltb_lt _ _)) by (unfold address; lia). cbn [andb].
      f_equal. unfold address in *; lia.
    + destruct ((Z.to_nat (address s x y a) <=? Z.to_nat (address s x' y' a'))%nat &&
        (Z.to_nat (address s x' y' a') <? Z.to_nat (address s x y a + len))%nat) eqn:C2; auto.
      exfalso. apply andb_true_iff in C2. rewrite Nat.leb_le, Nat.ltb_lt in C2.
      assert (C3 : address s x y a <= address s x' y' a' < address s x y a + len) by lia.
      assert (E3 : exists x'', x <= x'' < x + len /\ address s x'' y a = address s x' y' a').
      { exists (x + (address s x' y' a' - address s x y a)). split; [lia|]. unfold address; lia. }
      destruct E3 as (x'' & Hx'' & E3).
      cbn in I.
      pose proof (address_inj s (x'', y, a) (x', y', a') ltac:(cbn; lia) ltac:(cbn; lia) E3) as E4.
      injection E4 as -> -> ->.
      rewrite (proj2 (in_rangeb_iff _ _ _)), !Z.eqb_refl in C by lia. discriminate.
Qed.

(** Loops that copy one piece per iteration. *)
Lemma copy_loop {A} (f : cmap -> A -> outcome cmap) (P : A -> cell -> bool) s (l : list A) d :
  wf d -> same_dims d s ->
  (forall d i, In i l -> wf d -> same_dims d s -> exists d', f d i = Ok d' /\ wf d' /\ same_dims d' s /\
     forall c, in_map s c -> peek d' c = if P i c then peek s c else peek d c) ->
  exists d', foldM f l d = Ok d' /\ wf d' /\ same_dims d' s /\
     forall c, in_map s c -> peek d' c = if existsb (fun i => P i c) l then peek s c else peek d c.
Proof.
  revert d. induction l as [|i l IH]; intros d W D H.
  - exists d. cbn. auto.
  - destruct (H d i (or_introl eq_refl) W D) as (d1 & E1 & W1 & D1 & P1).
    destruct (IH d1 W1 D1 (fun d i Hi => H d i (or_intror Hi))) as (d2 & E2 & W2 & D2 & P2).
    exists d2. cbn [foldM]. rewrite E1. cbn [bind]. repeat (split; [assumption|]).
    intros c Hc. rewrite P2, P1 by assumption. cbn [existsb]. destruct (P i c); cbn [orb]; auto.
    destruct (existsb _ l); reflexivity.
Qed.

Lemma bitblt_ok r d s : wf d -> wf s -> same_dims d s -> 0 <= rz r ->
  exists d', bitblt r d s = Ok (normalize r (cw s) (ch s), d') /\ wf d' /\ same_dims d' s /\
    forall c, in_map s c -> (in_region r c -> peek d' c = peek s c) /\ (~ in_region r c -> peek d' c = peek d c).
Proof.
  intros Wd Ws D Hz. assert (D' := D). destruct D' as (D1 & D2 & D3). unfold bitblt.
  rewrite D1, D2, D3, !Z.eqb_refl. cbn [andb].
  assert (Hd : 0 <= cw s /\ 0 <= ch s /\ 0 <= ca s) by (destruct Ws as (? & ? & ? & _); auto).
  destruct Hd as (Hw & Hh & Ha).
  destruct (normalize_spec r (cw s) (ch s) Hw Hh) as (A1 & A2 & A3 & A4 & A5 & A6 & B1 & B2 & _ & C1 & C2).
  pose proof (C21_normalize_is_the_part_inside r (cw s) (ch s) Hw Hh) as [_ NR].
  set (n := normalize r (cw s) (ch s)) in *.
  assert (NR' : forall c, in_map s c -> in_region r c <-> in_region n c).
  { intros [[x y] a] I. rewrite NR. cbn in I. tauto. }
  destruct ((rw n =? 0) || (rh n =? 0))%bool eqn:Z0.
  - exists d. split; [reflexivity|]. repeat (split; [assumption|]). intros c I. split; [|auto].
    intros R. exfalso. apply NR' in R; auto. destruct c as [[x y] a]. cbn in R.
    rewrite orb_true_iff, !Z.eqb_eq in Z0. lia.
  - rewrite orb_false_iff, !Z.eqb_neq in Z0.
    rewrite (proj2 (Z.ltb_ge (rz n) 0)) by lia.
    set (angles := range_excl (rz n) (Z.min (rz n + ra n) (ca s))).
    set (rows := range_excl (ry n) (Z.min (ry n + rh n) (ch s))).
    set (len := Z.min (rw n) (cw s - rx n)).
    assert (Hlen : len = rw n) by (unfold len; lia).
    match goal with |- context [foldM ?f angles d] => set (F := f) end.
    destruct (copy_loop F (fun a c => existsb (fun y => let '(x', y', a') := c in (in_rangeb (rx n) x' (rx n + rw n) && (y' =? y) && (a' =? a))%bool) rows) s angles d Wd D) as (d' & E & W' & Dd' & P).
    { intros d0 a Hia W0 D0. unfold F. apply in_range_excl in Hia.
      apply (copy_loop _ (fun y c => let '(x', y', a') := c in (in_rangeb (rx n) x' (rx n + rw n) && (y' =? y) && (a' =? a))%bool)); auto.
      intros d1 y Hy W1 Dd1. apply in_range_excl in Hy.
      replace (address d1 (rx n) (ry n) a + (y - ry n) * cw d1) with (address d1 (rx n) y a) by (unfold address; lia).
      replace (address s (rx n) (ry n) a + (y - ry n) * cw s) with (address s (rx n) y a) by (unfold address; lia).
      rewrite Hlen.
      destruct (row_copy d1 s (rx n) y a (rw n) W1 Ws Dd1 A1 ltac:(lia) ltac:(lia) ltac:(lia) ltac:(lia)) as (data & E & W2 & P).
      exists (Cmap (cw d1) (ch d1) (ca d1) data). rewrite E. cbn [bind]. split; [reflexivity|]. split; [exact W2|].
      split; [exact Dd1|]. intros c I. apply P. apply (same_dims_in_map d1 s c Dd1). exact I. }
    exists d'. rewrite E. cbn [bind]. split; [reflexivity|]. repeat (split; [assumption|]).
    intros c I. rewrite P by assumption.
    assert (Q : existsb (fun a => existsb (fun y => let '(x', y', a') := c in (in_rangeb (rx n) x' (rx n + rw n) && (y' =? y) && (a' =? a))%bool) rows) angles = true <-> in_region n c).
    { destruct c as [[x y] a]. rewrite existsb_exists. cbn in I. split.
      - intros (a0 & Ia & H). apply existsb_exists in H. destruct H as (y0 & Iy & H).
        rewrite !andb_true_iff, in_rangeb_iff, !Z.eqb_eq in H. destruct H as ((H & ->) & ->).
        apply in_range_excl in Ia, Iy. cbn. lia.
      - cbn. intros (Hx & Hy & Hza). exists a. split; [apply in_range_excl; lia|]. apply existsb_exists. exists y.
        split; [apply in_range_excl; lia|]. rewrite !andb_true_iff, in_rangeb_iff, !Z.eqb_eq. auto. }
    rewrite NR' by assumption. rewrite <- Q.
    destruct (existsb _ angles); split; intros H; auto; congruence.
Qed.

(** Block transfer copies exactly the cells of the region that are inside the map. *)
Theorem C21_bitblt_copies_the_region r d s : wf d -> wf s -> same_dims d s -> 0 <= rz r ->
  exists r' d', bitblt r d s = Ok (r', d') /\ wf d' /\ same_dims d' s /\
    (forall x y a, in_map s (x, y, a) -> in_region r (x, y, a) -> getc d' x y a = getc s x y a) /\
    (forall x y a, in_map s (x, y, a) -> ~ in_region r (x, y, a) -> getc d' x y a = getc d x y a).
Proof.
  intros Wd Ws D Hz. destruct (bitblt_ok r d s Wd Ws D Hz) as (d' & E & W' & D' & P).
  exists (normalize r (cw s) (ch s)), d'. repeat (split; [assumption|]).
  split; intros x y a I H; rewrite !getc_ok by (first [assumption|apply (same_dims_in_map _ s); assumption]); f_equal; apply P; assumption.
Qed.

Example C21_example :
  let t := Region (-3) 1 0 5 4 2 7 in let r := Region 1 (-2) 0 3 4 2 9 in
  sized t /\ sized r /\ merge t r = Region (-3) (-2) 0 7 7 2 9 /\ normalize (merge t r) 3 4 = Region 0 0 0 3 4 2 9.
Proof. cbv. intuition congruence. Qed.
Example C21_bitblt_example :
  let d := Cmap 3 2 2 (repeat 0 12) in let s := Cmap 3 2 2 (map Z.of_nat (seq 1 12)) in
  wf d /\ wf s /\ same_dims d s /\ exists r' d', bitblt (Region 1 (-1) 1 5 2 4 0) d s = Ok (r', d') /\
    cdata d' = [0; 0; 0; 0; 0; 0; 0; 8; 9; 0; 0; 0].
Proof. cbv. intuition (try congruence). do 2 eexists. split; reflexivity. Qed.

(** Finding: an empty region may carry a newer time stamp, which merging a
    region into it loses. *)
Theorem C21_merge_keeps_newest_stamp_refuted :
  ~ (forall t r, sized t -> sized r -> rstamp (merge t r) = Z.max (rstamp t) (rstamp r)).
Proof. intros H. specialize (H (Region 0 0 0 0 0 1 9) (Region 0 0 0 1 1 1 5)). cbv in H. intuition congruence. Qed.

(** Finding: the template's bound check tests the combined address only; an
    x offset beyond the range reads the neighbouring row. *)
Theorem C22_template_out_of_range_is_rejected_refuted :
  ~ (forall k x y a, cache_wf k -> ~ in_cache k x y a -> cache_get k x y a = UB).
Proof.
  intros H. specialize (H (cache_reset 1 1 1) 2 0 0). cbv in H.
  assert (Ok 0 = UB) by (apply H; intuition congruence). discriminate.
Qed.

Print Assumptions C22_costmap_cells_do_not_alias.
Print Assumptions C22_costmap_write.
Print Assumptions C22_template_cells_do_not_alias.
Print Assumptions C22_template_reset_is_zero.
Print Assumptions C22_template_out_of_range_is_rejected_refuted.
Print Assumptions C21_merge_is_the_bounding_box.
Print Assumptions C21_merge_stamp.
Print Assumptions C21_normalize_is_the_part_inside.
Print Assumptions C21_expand.
Print Assumptions C21_bitblt_copies_the_region.
Print Assumptions C21_merge_keeps_newest_stamp_refuted.
