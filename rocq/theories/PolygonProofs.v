(** Lemmas about the crossing-parity test, segment distance and the radius. *)
From Coq Require Import Reals Lra Permutation Lia Psatz.
From Verif Require Import Common Polygon.
Local Open Scope R_scope.

Lemma Rleb_iff a b : Rleb a b = true <-> a <= b.
Proof. unfold Rleb. destruct (Rle_dec a b); split; auto; discriminate. Qed.
Lemma Rltb_iff a b : Rltb a b = true <-> a < b.
Proof. unfold Rltb. destruct (Rlt_dec a b); split; auto; discriminate. Qed.
Lemma Rleb_nlt a b : Rleb a b = negb (Rltb b a).
Proof. unfold Rleb, Rltb. destruct (Rle_dec a b), (Rlt_dec b a); auto; lra. Qed.
Lemma Rltb_false a b : b <= a -> Rltb a b = false.
Proof. unfold Rltb. destruct (Rlt_dec a b); auto; lra. Qed.
Lemma Rltb_true a b : a < b -> Rltb a b = true.
Proof. apply Rltb_iff. Qed.

(** Twice the signed area of the triangle p q r: positive if r is left of the line from p to q. *)
Definition turn (p q r : vec2) : R := cross (vsub q p) (vsub r p).

Definition up (a : vec2) (v1 v2 : vec2) : Prop := vy v1 <= vy a < vy v2.

Lemma lx_iff a v1 v2 : vy v1 <> vy v2 ->
  (vx a < vx v1 + (vx v2 - vx v1) * (vy a - vy v1) / (vy v2 - vy v1) <->
   if Rlt_dec (vy v1) (vy v2) then 0 < turn v1 v2 a else turn v1 v2 a < 0).
Proof.
  intros N. set (h := vy v2 - vy v1). set (L := vx v1 + (vx v2 - vx v1) * (vy a - vy v1) / h).
  assert (Hh : h <> 0) by (unfold h; lra).
  assert (E : turn v1 v2 a = h * (L - vx a)).
  { unfold turn, cross, vsub, L. cbn. fold h. field. assumption. }
  rewrite E. destruct (Rlt_dec (vy v1) (vy v2)); [assert (0 < h) by (unfold h; lra)|assert (h < 0) by (unfold h; lra)]; split; intros; nra.
Qed.

Lemma crossing_iff a v1 v2 : crossing a (v1, v2) = true <-> (up a v1 v2 /\ 0 < turn v1 v2 a) \/ (up a v2 v1 /\ turn v1 v2 a < 0).
Proof.
  unfold crossing, up.
  destruct ((Rleb (vy v1) (vy a) && Rltb (vy a) (vy v2)) || (Rleb (vy v2) (vy a) && Rltb (vy a) (vy v1))) eqn:E.
  - apply orb_true_iff in E. rewrite !andb_true_iff, !Rleb_iff, !Rltb_iff in E. rewrite Rltb_iff, lx_iff by lra.
    destruct (Rlt_dec (vy v1) (vy v2)); intuition lra.
  - apply orb_false_iff in E as [E1 E2]. split; [discriminate|]. intros [[H _]|[H _]];
      [rewrite <- E1|rewrite <- E2]; apply andb_true_iff; rewrite Rleb_iff, Rltb_iff; assumption.
Qed.
Lemma bool_ext (b c : bool) : (b = true <-> c = true) -> b = c.
Proof. destruct b, c; intuition congruence. Qed.

Lemma turn_swap v1 v2 a : turn v2 v1 a = - turn v1 v2 a.
Proof. unfold turn, cross, vsub. cbn. ring. Qed.
Lemma crossing_swap a v1 v2 : crossing a (v2, v1) = crossing a (v1, v2).
Proof. apply bool_ext. rewrite !crossing_iff, turn_swap. intuition lra. Qed.

(** ** Edge lists *)
Definition count (a : vec2) (l : list (vec2 * vec2)) : nat := length (filter (crossing a) l).
Lemma count_app a l1 l2 : count a (l1 ++ l2) = (count a l1 + count a l2)%nat.
Proof. unfold count. rewrite filter_app. apply app_length. Qed.
Definition swap (e : vec2 * vec2) := (snd e, fst e).
Lemma count_swap a l : count a (map swap l) = count a l.
Proof.
  unfold count. induction l as [|[u v] l IH]; [reflexivity|]. cbn [map filter]. unfold swap at 1. cbn [fst snd]. rewrite crossing_swap.
  destruct (crossing a (u, v)); cbn [length]; rewrite IH; reflexivity.
Qed.
Lemma count_rev a l : count a (rev l) = count a l.
Proof. induction l as [|e l IH]; [reflexivity|]. cbn [rev]. rewrite count_app, IH. unfold count. cbn. destruct (crossing a e); cbn; lia. Qed.

Lemma edges_cons a b l : edges (a :: b :: l) = (a, b) :: edges (b :: l).
Proof. reflexivity. Qed.
Lemma edges_app l a l' : edges (l ++ a :: l') = edges (l ++ [a]) ++ edges (a :: l').
Proof.
  induction l as [|b l IH]; [reflexivity|]. destruct l as [|c l].
  - cbn. reflexivity.
  - change ((b :: c :: l) ++ a :: l') with (b :: c :: (l ++ a :: l')). change ((b :: c :: l) ++ [a]) with (b :: c :: (l ++ [a])).
    rewrite !edges_cons. change (c :: l ++ a :: l') with ((c :: l) ++ a :: l'). change (c :: l ++ [a]) with ((c :: l) ++ [a]). rewrite IH. reflexivity.
Qed.
Lemma edges_rev l : edges (rev l) = map swap (rev (edges l)).
Proof.
  induction l as [|a l IH]; [reflexivity|]. destruct l as [|b l]; [reflexivity|].
  change (rev (a :: b :: l)) with ((rev l ++ [b]) ++ [a]). rewrite <- app_assoc. cbn [app]. rewrite edges_app.
  change (rev l ++ [b]) with (rev (b :: l)). rewrite IH. rewrite (edges_cons a b l). change (rev ((a, b) :: edges (b :: l))) with (rev (edges (b :: l)) ++ [(a, b)]).
  rewrite map_app. reflexivity.
Qed.

Definition close (p : list vec2) : list vec2 := match p with [] => [] | v0 :: _ => p ++ [v0] end.
Lemma polygon_of_close p f : polygon_of p = Some f -> f = close p /\ (3 <= length p)%nat.
Proof. destruct p as [|a [|b [|c p]]]; cbn; try discriminate. intros H. injection H as <-. split; [reflexivity|lia]. Qed.
Lemma polygon_of_some p : (3 <= length p)%nat -> polygon_of p = Some (close p).
Proof. destruct p as [|a [|b [|c p]]]; cbn; try lia. reflexivity. Qed.

Lemma rotate1 a v0 l : count a (edges (close (l ++ [v0]))) = count a (edges (close (v0 :: l))).
Proof.
  destruct l as [|v1 l]; [reflexivity|].
  change (close ((v1 :: l) ++ [v0])) with (((v1 :: l) ++ [v0]) ++ [v1]). rewrite <- app_assoc. cbn [app].
  change (v1 :: l ++ [v0; v1]) with ((v1 :: l) ++ v0 :: [v1]). rewrite edges_app, count_app.
  change (close (v0 :: v1 :: l)) with (v0 :: v1 :: (l ++ [v0])).
  change (edges (v0 :: v1 :: (l ++ [v0]))) with ([(v0, v1)] ++ edges ((v1 :: l) ++ [v0])). rewrite count_app. change (edges [v0; v1]) with [(v0, v1)]. lia.
Qed.
Lemma rotate a l1 : forall l2, count a (edges (close (l2 ++ l1))) = count a (edges (close (l1 ++ l2))).
Proof.
  induction l1 as [|v l1 IH]; intros l2; [rewrite app_nil_r; reflexivity|].
  replace (l2 ++ v :: l1) with ((l2 ++ [v]) ++ l1) by (rewrite <- app_assoc; reflexivity). rewrite IH. rewrite app_assoc. apply (rotate1 a v (l1 ++ l2)).
Qed.
Lemma reverse a p : count a (edges (close (rev p))) = count a (edges (close p)).
Proof.
  destruct p as [|v0 l]; [reflexivity|]. cbn [rev]. rewrite rotate1.
  assert (E : close (v0 :: rev l) = rev (close (v0 :: l))).
  { cbn. rewrite rev_app_distr. reflexivity. }
  rewrite E, edges_rev, count_swap, count_rev. reflexivity.
Qed.

Lemma inside_count v a : v <> [] -> inside v a = Ok (Nat.odd (count a (edges v))).
Proof. destruct v; [congruence|reflexivity]. Qed.
Lemma close_nonempty p : p <> [] -> close p <> [].
Proof. destruct p; [congruence|]. intros _. cbn. discriminate. Qed.

(** ** Straddling edges come in pairs *)
Definition straddle (a : vec2) (e : vec2 * vec2) : bool := xorb (Rleb (vy (fst e)) (vy a)) (Rleb (vy (snd e)) (vy a)).
Lemma straddle_parity a l : forall v, Nat.odd (length (filter (straddle a) (edges (v :: l)))) =
  xorb (Rleb (vy v) (vy a)) (Rleb (vy (last l v)) (vy a)).
Proof.
  induction l as [|b l IH]; intros v.
  - cbn. rewrite xorb_nilpotent. reflexivity.
  - change (edges (v :: b :: l)) with ((v, b) :: edges (b :: l)). cbn [filter].
    replace (last (b :: l) v) with (last l b) by (clear; revert b; induction l as [|c l IH]; intros b; [reflexivity|cbn; destruct l; [reflexivity|apply IH]]).
    unfold straddle at 1. cbn [fst snd]. destruct (xorb (Rleb (vy v) (vy a)) (Rleb (vy b) (vy a))) eqn:E.
    + cbn [length]. rewrite Nat.odd_succ, <- Nat.negb_odd, IH. destruct (Rleb (vy v) (vy a)), (Rleb (vy b) (vy a)), (Rleb (vy (last l b)) (vy a)); cbn in *; congruence.
    + rewrite IH. destruct (Rleb (vy v) (vy a)), (Rleb (vy b) (vy a)); cbn in *; congruence.
Qed.
Lemma straddle_even a p : Nat.odd (length (filter (straddle a) (edges (close p)))) = false.
Proof. destruct p as [|v p]; [reflexivity|]. cbn [close app]. rewrite straddle_parity, last_last. apply xorb_nilpotent. Qed.

Lemma crossing_straddle a e : crossing a e = true -> straddle a e = true.
Proof.
  destruct e as [v1 v2]. rewrite crossing_iff. unfold straddle, up. cbn [fst snd].
  intros [[[A B] _]|[[A B] _]]; unfold Rleb; destruct (Rle_dec (vy v1) (vy a)), (Rle_dec (vy v2) (vy a)); try reflexivity; lra.
Qed.

Lemma edges_in v l e : In e (edges (v :: l)) -> In (fst e) (v :: l) /\ In (snd e) (v :: l).
Proof.
  revert v. induction l as [|b l IH]; intros v; [intros []|]. change (edges (v :: b :: l)) with ((v, b) :: edges (b :: l)).
  intros [<-|H]; [cbn; auto|]. destruct (IH b H) as [A B]. split; right; assumption.
Qed.
Lemma edges_in_close p e : In e (edges (close p)) -> In (fst e) p /\ In (snd e) p.
Proof.
  destruct p as [|v p]; [intros []|]. cbn [close app]. intros H. apply edges_in in H.
  assert (G : forall u, In u (v :: p ++ [v]) -> In u (v :: p)) by (intros u [->|Hu]; [left; reflexivity|]; apply in_app_or in Hu as [Hu|[->|[]]]; [right; assumption|left; reflexivity]).
  destruct H. split; apply G; assumption.
Qed.

Lemma filter_none {A} (f : A -> bool) l : (forall e, In e l -> f e = false) -> filter f l = [].
Proof. induction l as [|x l IH]; intros H; [reflexivity|]. cbn. rewrite (H x (or_introl eq_refl)). apply IH. intros; apply H; right; assumption. Qed.

(** If all vertices lie strictly on one side of a line through [a], [a] is not inside. *)
Lemma separated p a nx ny : (forall v, In v p -> 0 < nx * (vx v - vx a) + ny * (vy v - vy a)) ->
  Nat.odd (count a (edges (close p))) = false.
Proof.
  intros H.
  assert (K : forall v1 v2, In v1 p -> In v2 p -> (up a v1 v2 -> 0 < nx * turn v1 v2 a) /\ (up a v2 v1 -> nx * turn v1 v2 a < 0)).
  { intros v1 v2 I1 I2. apply H in I1, I2. unfold up, turn, cross, vsub. cbn.
    set (ux := vx v1 - vx a) in *. set (uy := vy v1 - vy a) in *. set (wx := vx v2 - vx a) in *. set (wy := vy v2 - vy a) in *.
    replace ((vx v2 - vx v1) * (vy a - vy v1) - (vy v2 - vy v1) * (vx a - vx v1)) with (ux * wy - uy * wx) by (unfold ux, uy, wx, wy; ring).
    split; intros [A B].
    - assert (uy <= 0) by (unfold uy; lra). assert (0 < wy) by (unfold wy; lra).
      pose proof (Rmult_lt_0_compat _ _ I1 H1). assert (0 <= (nx * wx + ny * wy) * (- uy)) by (apply Rmult_le_pos; lra). nra.
    - assert (wy <= 0) by (unfold wy; lra). assert (0 < uy) by (unfold uy; lra).
      pose proof (Rmult_lt_0_compat _ _ I2 H1). assert (0 <= (nx * ux + ny * uy) * (- wy)) by (apply Rmult_le_pos; lra). nra. }
  destruct (Rlt_dec 0 nx) as [P|P].
  - unfold count. rewrite (filter_ext_in (crossing a) (straddle a)); [apply straddle_even|].
    intros [v1 v2] I. apply edges_in_close in I. cbn in I. destruct I as [I1 I2]. destruct (K v1 v2 I1 I2) as [K1 K2].
    apply bool_ext. split; [apply crossing_straddle|]. intros S. apply crossing_iff. unfold straddle in S. cbn in S. unfold up in *.
    unfold Rleb in S. destruct (Rle_dec (vy v1) (vy a)), (Rle_dec (vy v2) (vy a)); try discriminate S.
    + left. split; [lra|]. specialize (K1 ltac:(lra)). nra.
    + right. split; [lra|]. specialize (K2 ltac:(lra)). nra.
  - unfold count. rewrite filter_none; [reflexivity|]. intros [v1 v2] I. apply edges_in_close in I. cbn in I. destruct I as [I1 I2].
    destruct (K v1 v2 I1 I2) as [K1 K2]. destruct (crossing a (v1, v2)) eqn:E; [|reflexivity]. exfalso. apply crossing_iff in E.
    destruct E as [[U T]|[U T]]; [specialize (K1 U)|specialize (K2 U)]; nra.
Qed.

(** ** Indices *)
Section Index.
  Variable p : list vec2.
  Let n := length p.
  Definition vtx (i : nat) : vec2 := nth (i mod n) p (V2 0 0).

  Lemma edges_nth (l : list vec2) d : edges l = map (fun i => (nth i l d, nth (S i) l d)) (seq 0 (length l - 1)).
  Proof.
    induction l as [|a l IH]; [reflexivity|]. destruct l as [|b l]; [reflexivity|].
    change (edges (a :: b :: l)) with ((a, b) :: edges (b :: l)). rewrite IH.
    change (length (a :: b :: l) - 1)%nat with (S (length l)). change (length (b :: l) - 1)%nat with (length l - 0)%nat. rewrite Nat.sub_0_r.
    cbn [seq map]. f_equal. rewrite <- seq_shift, map_map. apply map_ext. intros i. reflexivity.
  Qed.

  Lemma edges_close : p <> [] -> edges (close p) = map (fun i => (vtx i, vtx (S i))) (seq 0 n).
  Proof.
    intros N. rewrite (edges_nth _ (V2 0 0)). assert (L : length (close p) = S n).
    { destruct p as [|v0 l] eqn:E; [congruence|]. cbn. rewrite app_length. unfold n. cbn. lia. }
    rewrite L. replace (S n - 1)%nat with n by lia. apply map_ext_in. intros i Hi. apply in_seq in Hi.
    assert (V : forall j, (j <= n)%nat -> nth j (close p) (V2 0 0) = vtx j).
    { intros j Hj. unfold vtx. destruct p as [|v0 l] eqn:E; [congruence|]. cbn [close].
      destruct (Nat.eq_dec j n) as [->|Nj].
      - rewrite Nat.mod_same by (unfold n; cbn; lia). unfold n. rewrite app_nth2 by lia. rewrite Nat.sub_diag. reflexivity.
      - rewrite Nat.mod_small by lia. apply app_nth1. fold n. lia. }
    rewrite !V by lia. reflexivity.
  Qed.
End Index.

Lemma filter_unique {A} (f : A -> bool) l x : NoDup l -> In x l -> f x = true -> (forall y, In y l -> f y = true -> y = x) -> length (filter f l) = 1%nat.
Proof.
  induction l as [|a l IH]; intros ND I F U; [destruct I|]. inversion ND; subst. cbn. destruct (f a) eqn:E.
  - assert (a = x) by (apply U; [left; reflexivity|assumption]). subst a. rewrite filter_none; [reflexivity|].
    intros e He. destruct (f e) eqn:Fe; [|reflexivity]. rewrite (U e (or_intror He) Fe) in He. contradiction.
  - apply IH; auto. destruct I as [->|I]; [congruence|assumption]. intros; apply U; [right|]; assumption.
Qed.
Lemma filter_map_length {A B} (g : A -> B) f l : length (filter f (map g l)) = length (filter (fun x => f (g x)) l).
Proof. induction l as [|a l IH]; [reflexivity|]. cbn. destruct (f (g a)); cbn; rewrite IH; reflexivity. Qed.

(** ** Convex polygons *)
(** Vertices in counter-clockwise order with every other vertex strictly left of each edge. *)
Definition strictly_convex (p : list vec2) : Prop :=
  (3 <= length p)%nat /\
  forall i k, (i < length p)%nat -> (k < length p)%nat -> k <> i -> k <> (S i mod length p)%nat ->
    0 < turn (nth i p (V2 0 0)) (nth (S i mod length p) p (V2 0 0)) (nth k p (V2 0 0)).

Section Convex.
  Variable p : list vec2.
  Hypothesis C : strictly_convex p.
  Let n := length p.
  Variable a : vec2.
  Hypothesis L : forall i, (i < n)%nat -> 0 < turn (vtx p i) (vtx p (S i)) a.

  Let n3 : (3 <= n)%nat. Proof. exact (proj1 C). Qed.

  Lemma conv i k : (k mod n <> i mod n)%nat -> (k mod n <> S i mod n)%nat -> 0 < turn (vtx p i) (vtx p (S i)) (vtx p k).
  Proof.
    intros K1 K2. unfold vtx. destruct C as [_ H].
    assert (E : (S i mod n = S (i mod n) mod n)%nat).
    { rewrite <- (Nat.add_1_r i), <- (Nat.add_1_r (i mod n)). rewrite Nat.add_mod_idemp_l by lia. reflexivity. }
    fold n in H. fold n. rewrite E. apply H; [apply Nat.mod_upper_bound; lia|apply Nat.mod_upper_bound; lia|assumption|rewrite <- E; assumption].
  Qed.
  Lemma left_all i : 0 < turn (vtx p i) (vtx p (S i)) a.
  Proof.
    assert (E : (S i mod n = S (i mod n) mod n)%nat).
    { rewrite <- (Nat.add_1_r i), <- (Nat.add_1_r (i mod n)). rewrite Nat.add_mod_idemp_l by lia. reflexivity. }
    pose proof (L (i mod n) (Nat.mod_upper_bound i n ltac:(lia))) as H. unfold vtx in *. fold n in H |- *.
    rewrite Nat.mod_mod in H by lia. rewrite E. exact H.
  Qed.
  Lemma vtx_same i j : (i mod n = j mod n)%nat -> vtx p i = vtx p j.
  Proof. unfold vtx. fold n. intros ->. reflexivity. Qed.
  Lemma succ_inj i j : (S i mod n = S j mod n)%nat -> (i mod n = j mod n)%nat.
  Proof.
    intros H. assert (E : forall i, (i mod n = (S i mod n + (n - 1)) mod n)%nat).
    { intros k. rewrite Nat.add_mod_idemp_l by lia. replace (S k + (n - 1))%nat with (k + 1 * n)%nat by lia. rewrite Nat.mod_add by lia. reflexivity. }
    rewrite (E i), (E j), H. reflexivity.
  Qed.

  Lemma unique_up i j : (i < n)%nat -> (j < n)%nat -> up a (vtx p i) (vtx p (S i)) -> up a (vtx p j) (vtx p (S j)) -> i = j.
  Proof.
    intros Hi Hj U1 U2. destruct (Nat.eq_dec i j) as [|N]; [assumption|exfalso].
    assert (M : (i mod n <> j mod n)%nat) by (rewrite !Nat.mod_small by assumption; assumption).
    assert (MS : (S i mod n <> S j mod n)%nat) by (intros E; apply succ_inj in E; contradiction).
    assert (A1 : (j mod n <> S i mod n)%nat) by (intros E; apply vtx_same in E; rewrite E in U2; unfold up in *; lra).
    assert (A2 : (i mod n <> S j mod n)%nat) by (intros E; apply vtx_same in E; rewrite E in U1; unfold up in *; lra).
    pose proof (conv i j ltac:(auto) ltac:(auto)) as H1. pose proof (conv i (S j) ltac:(auto) ltac:(auto)) as H2.
    pose proof (conv j i ltac:(auto) ltac:(auto)) as H3. pose proof (conv j (S i) ltac:(auto) ltac:(auto)) as H4.
    unfold up, turn, cross, vsub in *. cbn in *.
    destruct (vtx p i) as [ux uy], (vtx p (S i)) as [wx wy], (vtx p j) as [sx sy], (vtx p (S j)) as [tx ty], a as [ax ay]. cbn in *.
    assert (P1 := Rmult_lt_0_compat _ (ty - ay) H1 ltac:(lra)). assert (P2 : 0 <= ((wx - ux) * (ty - uy) - (wy - uy) * (tx - ux)) * (ay - sy)) by (apply Rmult_le_pos; lra).
    assert (P3 := Rmult_lt_0_compat _ (wy - ay) H3 ltac:(lra)). assert (P4 : 0 <= ((tx - sx) * (wy - sy) - (ty - sy) * (wx - sx)) * (ay - uy)) by (apply Rmult_le_pos; lra).
    clear - P1 P2 P3 P4.
    assert (((wx - ux) * (sy - uy) - (wy - uy) * (sx - ux)) * (ty - ay) + ((wx - ux) * (ty - uy) - (wy - uy) * (tx - ux)) * (ay - sy)
      + (((tx - sx) * (uy - sy) - (ty - sy) * (ux - sx)) * (wy - ay) + ((tx - sx) * (wy - sy) - (ty - sy) * (wx - sx)) * (ay - uy)) = 0) by ring.
    lra.
  Qed.

  Lemma extreme (s : R) : exists k, (k < n)%nat /\ forall j, s * vy (vtx p k) <= s * vy (vtx p j).
  Proof.
    assert (G : forall m, (0 < m)%nat -> exists k, (k < m)%nat /\ forall j, (j < m)%nat -> s * vy (vtx p k) <= s * vy (vtx p j)).
    { induction m as [|m IH]; [lia|]. intros _. destruct m as [|m].
      - exists 0%nat. split; [lia|]. intros j Hj. replace j with 0%nat by lia. lra.
      - destruct IH as (k & K1 & K2); [lia|]. destruct (Rle_lt_dec (s * vy (vtx p k)) (s * vy (vtx p (S m)))).
        + exists k. split; [lia|]. intros j Hj. destruct (Nat.eq_dec j (S m)) as [->|]; [assumption|]. apply K2. lia.
        + exists (S m). split; [lia|]. intros j Hj. destruct (Nat.eq_dec j (S m)) as [->|]; [lra|]. specialize (K2 j ltac:(lia)). lra. }
    destruct (G n ltac:(lia)) as (k & K1 & K2). exists k. split; [assumption|]. intros j.
    rewrite (vtx_same j (j mod n)) by (rewrite Nat.mod_mod by lia; reflexivity). apply K2. apply Nat.mod_upper_bound. lia.
  Qed.

  (** No horizontal line through [a] leaves all vertices on one side. *)
  Lemma some_both (s : R) : s = 1 \/ s = -1 -> exists k, s * vy (vtx p k) < s * vy a \/ (s * vy (vtx p k) = s * vy a /\ False).
  Proof.
    intros Hs. destruct (extreme s) as (k & _ & K). exists k. left. destruct (Rlt_le_dec (s * vy (vtx p k)) (s * vy a)) as [|G]; [assumption|exfalso].
    set (j := (k + n - 1)%nat). assert (Ej : (S j mod n = k mod n)%nat) by (unfold j; replace (S (k + n - 1))%nat with (k + 1 * n)%nat by lia; apply Nat.mod_add; lia).
    assert (V : vtx p (S j) = vtx p k) by (apply vtx_same; assumption).
    assert (T : 0 < turn (vtx p j) (vtx p (S j)) (vtx p (S k))).
    { apply conv.
      - intros E. assert (E2 : (S k mod n = (k + (n - 1)) mod n)%nat) by (rewrite E; f_equal; unfold j; lia).
        rewrite <- Nat.add_1_r in E2. rewrite <- Nat.add_mod_idemp_l in E2 by lia. rewrite <- (Nat.add_mod_idemp_l k (n - 1)) in E2 by lia.
        pose proof (Nat.mod_upper_bound k n ltac:(lia)) as B. set (r := (k mod n)%nat) in *.
        destruct (Nat.eq_dec r 0) as [->|R0].
        + rewrite !Nat.mod_small in E2 by lia. lia.
        + replace (r + (n - 1))%nat with (r - 1 + 1 * n)%nat in E2 by lia. rewrite Nat.mod_add in E2 by lia. rewrite (Nat.mod_small (r - 1)) in E2 by lia.
          destruct (Nat.eq_dec (r + 1) n) as [E3|E3]; [rewrite E3, Nat.mod_same in E2 by lia; lia|rewrite Nat.mod_small in E2 by lia; lia].
      - rewrite Ej. intros E. replace (k mod n)%nat with ((k + 0) mod n)%nat in E by (f_equal; lia). rewrite <- Nat.add_1_r in E.
        rewrite <- (Nat.add_mod_idemp_l k 1) in E by lia. rewrite <- (Nat.add_mod_idemp_l k 0) in E by lia.
        pose proof (Nat.mod_upper_bound k n ltac:(lia)) as B. set (r := (k mod n)%nat) in *. rewrite Nat.add_0_r, (Nat.mod_small r) in E by lia.
        destruct (Nat.eq_dec (r + 1) n) as [E3|E3]; [rewrite E3, Nat.mod_same in E by lia; lia|rewrite Nat.mod_small in E by lia; lia]. }
    pose proof (left_all j) as L1. pose proof (left_all k) as L2. rewrite V in T, L1.
    pose proof (K j) as K1. pose proof (K (S k)) as K2. clear K Ej V.
    unfold turn, cross, vsub in *. destruct (vtx p j) as [jx jy], (vtx p k) as [kx ky], (vtx p (S k)) as [sx sy], a as [ax ay]. cbn in *.
    (* in-edge direction (kx-jx, ky-jy), out-edge (sx-kx, sy-ky) *)
    assert (X : (sx - kx) * (jy - ky) - (sy - ky) * (jx - kx) > 0) by nra.
    assert (L1' : (kx - jx) * (ay - ky) - (ky - jy) * (ax - kx) > 0) by nra.
    assert (Y1 : 0 <= s * (jy - ky)) by lra. assert (Y2 : 0 <= s * (sy - ky)) by lra. assert (Y3 : s * (ay - ky) <= 0) by lra.
    set (d := s * (jy - ky)) in *. set (e := s * (sy - ky)) in *. set (g := s * (ay - ky)) in *.
    assert (Z1 : 0 <= ((sx - kx) * (ay - ky) - (sy - ky) * (ax - kx)) * d) by (apply Rmult_le_pos; lra).
    assert (Z2 : 0 <= ((kx - jx) * (ay - ky) - (ky - jy) * (ax - kx)) * e) by (apply Rmult_le_pos; lra).
    assert (Q : ((sx - kx) * (ay - ky) - (sy - ky) * (ax - kx)) * d + ((kx - jx) * (ay - ky) - (ky - jy) * (ax - kx)) * e
      = g * ((sx - kx) * (jy - ky) - (sy - ky) * (jx - kx))) by (unfold d, e, g; ring).
    assert (G0 : g = 0) by nra.
    assert (Y : ay - ky = 0) by (unfold g in G0; destruct Hs as [-> | ->]; lra).
    rewrite Y in L1', L2. unfold d in Y1. unfold e in Y2. clear - L1' L2 Y1 Y2 Hs. set (t := ax - kx) in *. set (u := jy - ky) in *. set (v := sy - ky) in *.
    assert (A1 : 0 < u * t) by (unfold u; lra). assert (A2 : v * t < 0) by lra. clear L1' L2.
    destruct Hs as [-> | ->]; destruct (Rle_lt_dec t 0); nra.
  Qed.

  Lemma some_up : exists i, (i < n)%nat /\ up a (vtx p i) (vtx p (S i)).
  Proof.
    destruct (some_both 1 (or_introl eq_refl)) as (l & [Hl|[_ []]]). destruct (some_both (-1) (or_intror eq_refl)) as (h & [Hh|[_ []]]).
    assert (G : forall m, vy (vtx p l) <= vy a -> vy a < vy (vtx p (l + m)) -> exists i, up a (vtx p i) (vtx p (S i))).
    { induction m as [|m IH]; intros A B; [rewrite Nat.add_0_r in B; lra|].
      destruct (Rlt_le_dec (vy a) (vy (vtx p (l + m)))) as [Q|Q]; [apply IH; assumption|].
      exists (l + m)%nat. split; [assumption|]. replace (S (l + m)) with (l + S m)%nat by lia. assumption. }
    destruct (G (h + (n - l mod n))%nat) as (i & U); [lra| |].
    - rewrite (vtx_same _ h); [lra|]. pose proof (Nat.mod_upper_bound l n ltac:(lia)). pose proof (Nat.div_mod l n ltac:(lia)).
      replace (l + (h + (n - l mod n)))%nat with (h + (1 + l / n) * n)%nat by nia. apply Nat.mod_add. lia.
    - exists (i mod n)%nat. split; [apply Nat.mod_upper_bound; lia|].
      rewrite (vtx_same (i mod n) i) by (apply Nat.mod_mod; lia). rewrite (vtx_same (S (i mod n)) (S i)); [assumption|].
      rewrite <- (Nat.add_1_r i), <- (Nat.add_1_r (i mod n)). apply Nat.add_mod_idemp_l. lia.
  Qed.

  Lemma convex_count : count a (edges (close p)) = 1%nat.
  Proof.
    unfold count. rewrite edges_close by (intros E; unfold n in n3; rewrite E in n3; cbn in n3; lia). rewrite filter_map_length.
    destruct some_up as (i & Hi & U). apply (filter_unique _ _ i).
    - apply seq_NoDup.
    - apply in_seq. fold n. lia.
    - apply crossing_iff. left. split; [assumption|apply left_all].
    - intros j Hj X. apply in_seq in Hj. fold n in Hj. apply crossing_iff in X. pose proof (left_all j). destruct X as [[X _]|[_ X]]; [|lra].
      apply unique_up; [lia|assumption|assumption|assumption].
  Qed.
End Convex.

(** ** Distances *)
Definition norm2 (v : vec2) : R := vx v * vx v + vy v * vy v.
Definition on_segment (a b q : vec2) : Prop := exists t, 0 <= t <= 1 /\ q = V2 (vx a + t * (vx b - vx a)) (vy a + t * (vy b - vy a)).

Lemma sqr_nonneg x : 0 <= x * x. Proof. nra. Qed.
Lemma vdist_sqr a b : vdist a b * vdist a b = (vx a - vx b) * (vx a - vx b) + (vy a - vy b) * (vy a - vy b).
Proof. unfold vdist. apply sqrt_sqrt. apply Rplus_le_le_0_compat; apply sqr_nonneg. Qed.
Lemma vdist_nonneg a b : 0 <= vdist a b. Proof. apply sqrt_pos. Qed.

Lemma segment_distance p a b : (forall q, on_segment a b q -> dist_linestrip p a b <= vdist p q) /\ exists q, on_segment a b q /\ dist_linestrip p a b = vdist p q.
Proof.
  unfold dist_linestrip. destruct p as [x y], a as [ax ay], b as [bx by_]. unfold vsub, dot. cbn [vx vy].
  destruct (Rleb _ 0) eqn:E1; [apply Rleb_iff in E1|].
  { split.
    - intros q (t & T & ->). unfold vdist. cbn [vx vy]. apply sqrt_le_1_alt.
      assert (0 <= t * - ((bx - ax) * (x - ax) + (by_ - ay) * (y - ay))) by (apply Rmult_le_pos; lra).
      pose proof (sqr_nonneg (t * (bx - ax))). pose proof (sqr_nonneg (t * (by_ - ay))). lra.
    - exists (V2 ax ay). split; [exists 0; split; [lra|f_equal; cbn; ring]|reflexivity]. }
  destruct (Rleb ((ax - bx) * (x - bx) + (ay - by_) * (y - by_)) 0) eqn:E2; [apply Rleb_iff in E2|].
  { split.
    - intros q (t & T & ->). unfold vdist. cbn [vx vy]. apply sqrt_le_1_alt.
      assert (0 <= (1 - t) * - ((ax - bx) * (x - bx) + (ay - by_) * (y - by_))) by (apply Rmult_le_pos; lra).
      replace (x - (ax + t * (bx - ax))) with ((x - bx) + (1 - t) * (bx - ax)) by ring.
      replace (y - (ay + t * (by_ - ay))) with ((y - by_) + (1 - t) * (by_ - ay)) by ring.
      pose proof (sqr_nonneg ((1 - t) * (bx - ax))). pose proof (sqr_nonneg ((1 - t) * (by_ - ay))). lra.
    - exists (V2 bx by_). split; [exists 1; split; [lra|f_equal; cbn; ring]|reflexivity]. }
  rewrite Rleb_nlt in E1, E2. apply negb_false_iff in E1, E2. apply Rltb_iff in E1, E2.
  set (dx := bx - ax) in *. set (dy := by_ - ay) in *. set (D := dx * dx + dy * dy). set (s := dx * (x - ax) + dy * (y - ay)) in *.
  assert (SD : s < D). { unfold s, D. replace ((ax - bx) * (x - bx) + (ay - by_) * (y - by_)) with (D - s) in E2 by (unfold D, s, dx, dy; ring). fold D s. lra. }
  assert (DP : 0 < D) by lra.
  assert (LL : Rabs (dist_line (V2 x y) (V2 ax ay) (V2 bx by_)) = vdist (V2 x y) (V2 (ax + s / D * dx) (ay + s / D * dy))).
  { unfold dist_line, vdist, cross, vsub. cbn [vx vy]. fold dx dy. fold D.
    rewrite <- sqrt_Rsqr_abs. f_equal. unfold Rsqr.
    assert (Hs : sqrt D <> 0) by (apply Rgt_not_eq; apply sqrt_lt_R0; assumption).
    replace ((dx * (y - ay) - dy * (x - ax)) / sqrt D * ((dx * (y - ay) - dy * (x - ax)) / sqrt D))
      with ((dx * (y - ay) - dy * (x - ax)) * (dx * (y - ay) - dy * (x - ax)) / (sqrt D * sqrt D)) by (field; assumption).
    rewrite sqrt_sqrt by lra. unfold s, D. field. fold D. lra. }
  rewrite LL. split.
  - intros q (t & T & ->). unfold vdist. cbn [vx vy]. fold dx dy. apply sqrt_le_1_alt.
    assert (E : (x - (ax + t * dx)) * (x - (ax + t * dx)) + (y - (ay + t * dy)) * (y - (ay + t * dy))
      = (x - (ax + s / D * dx)) * (x - (ax + s / D * dx)) + (y - (ay + s / D * dy)) * (y - (ay + s / D * dy)) + D * ((t - s / D) * (t - s / D))).
    { unfold D at 1 2 3 4 5 6. unfold s, D. field. fold D. lra. }
    rewrite E. pose proof (sqr_nonneg (t - s / D)). nra.
  - eexists. split; [|reflexivity]. exists (s / D). split; [|reflexivity]. split.
    + apply Rmult_le_pos; [lra|]. left. apply Rinv_0_lt_compat. assumption.
    + apply (Rmult_le_reg_r D); [assumption|]. unfold Rdiv. rewrite Rmult_assoc, Rinv_l by lra. lra.
Qed.

Definition on_outline (f : list vec2) (q : vec2) : Prop := exists e, In e (edges f) /\ on_segment (fst e) (snd e) q.

Lemma pdist_spec f a : f <> [] -> exists d, pdist f a = Ok d /\ d <= FLT_MAX /\ (forall q, on_outline f q -> d <= vdist a q) /\
  (d = FLT_MAX \/ exists q, on_outline f q /\ d = vdist a q).
Proof.
  intros N. unfold pdist. destruct f as [|v f]; [congruence|]. set (f' := v :: f). eexists. split; [reflexivity|].
  assert (G : forall l d0, let d := fold_left (fun d e => let d' := dist_linestrip a (fst e) (snd e) in if Rltb d' d then d' else d) l d0 in
    d <= d0 /\ (forall e, In e l -> d <= dist_linestrip a (fst e) (snd e)) /\ (d = d0 \/ exists e, In e l /\ d = dist_linestrip a (fst e) (snd e))).
  { induction l as [|e l IH]; intros d0; cbn [fold_left]; [split; [cbn; lra|]; split; [intros ? []|left; reflexivity]|].
    set (d1 := if Rltb _ d0 then _ else d0). destruct (IH d1) as (A & B & Cc).
    assert (D1 : d1 <= d0 /\ d1 <= dist_linestrip a (fst e) (snd e) /\ (d1 = d0 \/ d1 = dist_linestrip a (fst e) (snd e))).
    { unfold d1. cbv zeta. destruct (Rltb (dist_linestrip a (fst e) (snd e)) d0) eqn:E.
      - apply Rltb_iff in E. split; [lra|]. split; [lra|]. right. reflexivity.
      - assert (~ dist_linestrip a (fst e) (snd e) < d0) by (rewrite <- Rltb_iff; congruence). split; [lra|]. split; [lra|]. left. reflexivity. }
    cbv zeta. cbv zeta in A, B, Cc. destruct D1 as (D1 & D2 & D3). split; [lra|]. split.
    - intros e' [<-|He]; [lra|auto].
    - destruct Cc as [Q|(e' & E1 & E2)]; [|right; exists e'; split; [right|]; assumption].
      destruct D3 as [D3|D3]; [left; congruence|right; exists e; split; [left; reflexivity|congruence]]. }
  destruct (G (edges f') FLT_MAX) as (A & B & Cc). cbv zeta in *. split; [assumption|]. split.
  - intros q ([e1 e2] & I & S). specialize (B _ I). cbn [fst snd] in *. destruct (segment_distance a e1 e2) as [S1 _]. specialize (S1 q S). lra.
  - destruct Cc as [Q|((e1 & e2) & I & E)]; [left; assumption|right]. cbn [fst snd] in E. destruct (segment_distance a e1 e2) as [_ (q & S1 & S2)].
    exists q. split; [exists (e1, e2); split; assumption|congruence].
Qed.

(** ** Radius *)
Lemma radius_spec v : 0 <= radius v /\ (forall p, In p v -> sqrt (norm2 p) <= radius v) /\ (radius v = 0 \/ exists p, In p v /\ radius v = sqrt (norm2 p)).
Proof.
  unfold radius.
  assert (G : forall l r0, let r := fold_left (fun r p => let d := sqrt (vx p * vx p + vy p * vy p) in if Rltb r d then d else r) l r0 in
    r0 <= r /\ (forall p, In p l -> sqrt (norm2 p) <= r) /\ (r = r0 \/ exists p, In p l /\ r = sqrt (norm2 p))).
  { induction l as [|e l IH]; intros r0; cbn [fold_left]; [split; [cbn; lra|]; split; [intros ? []|left; reflexivity]|].
    set (r1 := if Rltb r0 _ then _ else r0). destruct (IH r1) as (A & B & Cc).
    assert (D1 : r0 <= r1 /\ sqrt (norm2 e) <= r1 /\ (r1 = r0 \/ r1 = sqrt (norm2 e))).
    { unfold r1, norm2. cbv zeta. destruct (Rltb r0 _) eqn:E.
      - apply Rltb_iff in E. split; [lra|]. split; [lra|]. right. reflexivity.
      - assert (~ r0 < sqrt (vx e * vx e + vy e * vy e)) by (rewrite <- Rltb_iff; congruence). split; [lra|]. split; [lra|]. left. reflexivity. }
    cbv zeta in *. destruct D1 as (D1 & D2 & D3). split; [lra|]. split.
    - intros e' [<-|He]; [lra|auto].
    - destruct Cc as [Q|(e' & E1 & E2)]; [|right; exists e'; split; [right|]; assumption].
      destruct D3 as [D3|D3]; [left; congruence|right; exists e; split; [left; reflexivity|congruence]]. }
  exact (G v 0).
Qed.
