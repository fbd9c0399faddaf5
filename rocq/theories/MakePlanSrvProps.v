(** C74: the make_plan service. *)
From Coq Require Import QArith Lra Psatz ZifyBool Permutation.
From Verif Require Import Common CyclicVec CyclicVecSpec CyclicVecProofs GridMapSpec GridMapProofs CostAlg CostZ MotionCache Motion3DSpec Motion3DProofs
  DistMap Overlay OverlayProofs SearchAvail SearchAvailProps AStar AStarSpec AStarProofs AStarSearch AStarTerm AStarComplete AStarOpt AStarProps MakePlanSrv.
From Coq Require Import Reals Rgeom.
Local Open Scope Z_scope.

(** *** Specification *)
(** The cell nearest to the point a fraction k/n of the way along a displacement. *)
Definition along (dx dy n k : Z) : cell :=
  (lround (inject_Z dx * (k # Z.to_pos n))%Q, lround (inject_Z dy * (k # Z.to_pos n))%Q).
Definition cell_eq_dec : forall a b : cell, {a = b} + {a <> b}.
Proof. decide equality; apply Z.eq_dec. Defined.

Section Spec.
  Variables W H range : Z.
  Variable cost : cell -> Z.
  Variables coef res weight : R.
  Variable steps : Z -> Z -> Z.

  (** The cells a straight motion by (dx, dy) passes before its end, each once, relative to its start. *)
  Definition passed (dx dy : Z) : list cell :=
    nodup cell_eq_dec (filter (fun c => if cell_eq_dec c (dx, dy) then false else true)
      (map (along dx dy (steps dx dy)) (range_excl 0 (steps dx dy)))).
  Definition on_map (c : cell) : Prop := 0 <= fst c < W /\ 0 <= snd c < H.

  (** A hop: to another cell of the map, not further than the range, passing no obstacle. *)
  Definition hop (a b : cell) : Prop :=
    let dx := fst b - fst a in let dy := snd b - snd a in
    a <> b /\ on_map a /\ on_map b /\ dx * dx + dy * dy <= range * range /\
    forall m, In m (passed dx dy) -> cost (fst a + fst m, snd a + snd m) <= 99.

  (** Its cost: its length, weighed, and the mean cost of the cells passed, in proportion to the length. *)
  Definition hop_cost (a b : cell) : R :=
    let dx := fst b - fst a in let dy := snd b - snd a in let p := passed dx dy in
    let mean := (IZR (fold_right Z.add 0%Z (map (fun m => cost (fst a + fst m, snd a + snd m)%Z) p)) / INR (length p))%R in
    let len := sqrt (IZR (dx * dx + dy * dy)) in
    (coef * len + weight * (res * len) * (mean / 100))%R.

  Definition way (a b : cell) (l : list cell) : Prop := hd_error l = Some a /\ last l a = b /\ linked hop l.
  Fixpoint way_cost (l : list cell) : R :=
    match l with
    | a :: ((b :: _) as t) => (hop_cost a b + way_cost t)%R
    | _ => 0%R
    end.
End Spec.

(** *** The pages *)
Lemma NoDup_snoc {X} (l : list X) a : NoDup l -> ~ In a l -> NoDup (l ++ [a]).
Proof.
  intros H N. apply (Permutation_NoDup (l := a :: l)); [|constructor; assumption].
  apply Permutation_cons_append.
Qed.
Lemma build_loop_NoDup angle istep d : forall samples step reg motion interp,
  NoDup motion -> (forall c, In c motion -> In c reg) ->
  NoDup (pg_motion (build_loop angle istep d samples step reg motion interp)).
Proof.
  induction samples as [|p samples IH]; intros step reg motion interp ND Hin; simpl; [exact ND|].
  apply IH.
  - destruct (negb (veq _ d) && negb (existsb _ reg)) eqn:E; [|exact ND].
    apply andb_true_iff in E. destruct E as [_ E]. apply negb_true_iff in E.
    apply NoDup_snoc; [exact ND|]. intros X. apply Hin in X.
    assert (Y : existsb (veq (to_cell angle p)) reg = true) by (apply existsb_exists; eexists; split; [exact X|apply veq_refl]).
    congruence.
  - destruct (negb (veq _ d) && negb (existsb _ reg)) eqn:E; [|exact Hin].
    intros c Hc. apply in_app_or in Hc. destruct Hc as [Hc|[<-|[]]]; [right; auto|left; reflexivity].
Qed.

Definition flat (c : cell) : MotionCache.vec := [fst c; snd c; 0].

Lemma flat_inj a b : flat a = flat b -> a = b.
Proof. destruct a, b. unfold flat. cbn. congruence. Qed.

Lemma sample_cell A dx dy n k : 0 < A ->
  to_cell A (mkPosef (inject_Z dx * (k # Z.to_pos n))%Q (inject_Z dy * (k # Z.to_pos n))%Q (inject_Z 0)) = flat (along dx dy n k).
Proof. intros HA. unfold to_cell, flat, along. cbn [px py pt fst snd]. rewrite lround_Z. rewrite Z.mod_0_l by lia. reflexivity. Qed.

Lemma page_mem A istep dx dy n v : 0 < A ->
  In v (pg_motion (build_page A istep [dx; dy; 0] (straight_samples 0 [dx; dy; 0] n))) <->
  exists k, 0 <= k < n /\ along dx dy n k <> (dx, dy) /\ v = flat (along dx dy n k).
Proof.
  intros HA. unfold build_page. split.
  - intros X. apply build_loop_origin in X. destruct X as [[]|(p & Hp & -> & N)].
    unfold straight_samples in Hp. apply List.in_map_iff in Hp. destruct Hp as (k & <- & Hk). apply in_range_excl in Hk.
    cbn [vx vy nth] in *. exists k. split; [exact Hk|]. rewrite sample_cell in N |- * by exact HA.
    split; [|reflexivity]. intros E. apply N. rewrite E. reflexivity.
  - intros (k & Hk & N & ->).
    assert (X := build_loop_cells A istep [dx; dy; 0] (straight_samples 0 [dx; dy; 0] n) 0 [[dx; dy; 0]] [] []
      ltac:(intros c [<-|[]]; left; reflexivity)
      (mkPosef (inject_Z dx * (k # Z.to_pos n))%Q (inject_Z dy * (k # Z.to_pos n))%Q (inject_Z 0))).
    rewrite sample_cell in X by exact HA. destruct X as [X|X].
    + unfold straight_samples. apply List.in_map_iff. exists k. split; [reflexivity|]. apply in_range_excl. exact Hk.
    + exfalso. apply N. apply flat_inj. symmetry. exact X.
    + exact X.
Qed.

Lemma passed_mem steps dx dy c : In c (passed steps dx dy) <-> exists k, 0 <= k < steps dx dy /\ along dx dy (steps dx dy) k <> (dx, dy) /\ c = along dx dy (steps dx dy) k.
Proof.
  unfold passed. rewrite nodup_In, filter_In, List.in_map_iff. split.
  - intros [(k & <- & Hk) N]. apply in_range_excl in Hk. exists k. split; [exact Hk|]. split; [|reflexivity].
    destruct (cell_eq_dec _ _); [discriminate|assumption].
  - intros (k & Hk & N & ->). split; [exists k; split; [reflexivity|apply in_range_excl; exact Hk]|].
    destruct (cell_eq_dec _ _); [contradiction|reflexivity].
Qed.

Lemma page_passed A istep steps dx dy : 0 < A ->
  Permutation (pg_motion (build_page A istep [dx; dy; 0] (straight_samples 0 [dx; dy; 0] (steps dx dy)))) (map flat (passed steps dx dy)).
Proof.
  intros HA. apply NoDup_Permutation.
  - apply build_loop_NoDup; [constructor|intros c []].
  - apply FinFun.Injective_map_NoDup; [intros a b; apply flat_inj|apply NoDup_nodup].
  - intros v. rewrite page_mem by exact HA. rewrite List.in_map_iff. split.
    + intros (k & Hk & N & ->). exists (along dx dy (steps dx dy) k). split; [reflexivity|]. apply passed_mem. eauto.
    + intros (c & <- & Hc). apply passed_mem in Hc. destruct Hc as (k & Hk & N & ->). eauto.
Qed.

Lemma along_between dx dy n k : 0 <= k < n ->
  (0 <= fst (along dx dy n k) <= dx \/ dx <= fst (along dx dy n k) <= 0) /\ (0 <= snd (along dx dy n k) <= dy \/ dy <= snd (along dx dy n k) <= 0).
Proof.
  intros Hk. unfold along. cbn [fst snd].
  split; apply lround_between; rewrite Z2Pos.id by lia; lia.
Qed.

(** *** The cost *)
Definition total (cost : cell -> Z) (a : cell) (p : list cell) : Z := fold_right Z.add 0 (map (fun m => cost (fst a + fst m, snd a + snd m)) p).

Lemma fold_add_perm (l l' : list Z) : Permutation l l' -> fold_right Z.add 0 l = fold_right Z.add 0 l'.
Proof. induction 1; cbn; lia. Qed.

Section Cost.
  Variables W H A range : Z.
  Variable cost : cell -> Z.
  Variables coef res weight : R.
  Variable steps : Z -> Z -> Z.
  Variable istep : Z.
  Hypothesis HA : 0 < A.
  Hypothesis Hr : 0 <= range.
  Hypothesis Hsteps : forall dx dy, (dx, dy) <> (0, 0) -> 0 < steps dx dy.
  Hypothesis Hcost : forall c, 0 <= cost c.
  Hypothesis Hcoef : (0 <= coef)%R.
  Hypothesis Hres : (0 <= res)%R.
  Hypothesis Hw : (0 <= weight)%R.

  Notation on_map := (on_map W H).
  Notation hop := (hop W H range cost steps).
  Notation hop_cost := (hop_cost cost coef res weight steps).
  Notation M := (model2d W H A range cost coef res weight steps istep).

  Lemma rough_loop_spec (cx cy : Z) : forall m sum, (forall v, In v m -> on_map (cx + vx v, cy + vy v)) ->
    (exists v, In v m /\ 99 < cost (cx + vx v, cy + vy v)) /\ rough_loop W H cost cx cy m sum = Ok None \/
    (forall v, In v m -> cost (cx + vx v, cy + vy v) <= 99) /\
      rough_loop W H cost cx cy m sum = Ok (Some (sum + fold_right Z.add 0 (map (fun v => cost (cx + vx v, cy + vy v)%Z) m))).
  Proof.
    induction m as [|v m IH]; intros sum Hin; cbn [rough_loop map fold_right].
    - right. split; [intros v []|]. do 2 f_equal. lia.
    - pose proof (Hin v (or_introl eq_refl)) as [X Y]. cbn [fst snd] in X, Y.
      replace (_ && _) with true by lia.
      destruct (Z.ltb_spec 99 (cost (cx + vx v, cy + vy v))) as [E|E].
      + left. split; [exists v; split; [left; reflexivity|exact E]|reflexivity].
      + destruct (IH (sum + cost (cx + vx v, cy + vy v)) (fun w Hw' => Hin w (or_intror Hw'))) as [[(w & Hw' & L) E']|[L E']].
        * left. split; [exists w; split; [right; exact Hw'|exact L]|exact E'].
        * right. split; [intros w [<-|Hw']; [exact E|apply L; exact Hw']|]. rewrite E'. do 2 f_equal. lia.
  Qed.

  Lemma passed_on_map a b m : on_map a -> on_map b -> In m (passed steps (fst b - fst a) (snd b - snd a)) ->
    on_map (fst a + fst m, snd a + snd m).
  Proof.
    intros [Xa Ya] [Xb Yb] Hm. apply passed_mem in Hm. destruct Hm as (k & Hk & _ & ->).
    destruct (along_between (fst b - fst a) (snd b - snd a) _ k Hk) as [P Q]. split; cbn [fst snd]; lia.
  Qed.

  Lemma passed_nonempty dx dy : (dx, dy) <> (0, 0) -> passed steps dx dy <> [].
  Proof.
    intros N E. specialize (Hsteps dx dy N).
    assert (X : In (along dx dy (steps dx dy) 0) (passed steps dx dy)).
    { apply passed_mem. exists 0. split; [lia|]. split; [|reflexivity]. unfold along.
      assert (Z0 : forall z, (inject_Z z * (0 # Z.to_pos (steps dx dy)) == inject_Z 0)%Q) by (intros z; unfold Qeq; cbn; lia).
      assert (L0 : forall z, lround (inject_Z z * (0 # Z.to_pos (steps dx dy))) = 0).
      { intros z. apply Z.le_antisymm; rewrite <- (lround_Z 0); apply lround_mono; rewrite Z0; apply Qle_refl. }
      rewrite !L0. congruence. }
    rewrite E in X. destruct X.
  Qed.

  (** The cost of a move, in terms of the specification. *)
  Lemma cost2d_spec a b t t' : on_map a -> on_map b ->
    (hop a b /\ cost2d W H A range cost coef res weight steps istep [fst a; snd a; t] [fst b; snd b; t'] = Ok (Some (hop_cost a b))) \/
    (~ hop a b /\ cost2d W H A range cost coef res weight steps istep [fst a; snd a; t] [fst b; snd b; t'] = Ok (Some (-1)%R)).
  Proof.
    intros Ma Mb. unfold cost2d. cbn [vx vy nth].
    set (dx := fst b - fst a). set (dy := snd b - snd a). unfold linear_page.
    destruct ((dx =? 0) && (dy =? 0)) eqn:E0.
    { right. split; [|reflexivity]. intros (N & _). apply N. destruct a, b. cbn in *. f_equal; lia. }
    destruct (Z.ltb_spec (range * range) (dx * dx + dy * dy)) as [E1|E1].
    { right. split; [|reflexivity]. intros (_ & _ & _ & N & _). fold dx dy in N. lia. }
    assert (N0 : (dx, dy) <> (0, 0)) by (intros X; injection X as X1 X2; rewrite X1, X2 in E0; discriminate).
    destruct ((range <? Z.abs dx) || (range <? Z.abs dy)) eqn:E2.
    { exfalso. nia. }
    set (pg := pg_motion _).
    assert (P : Permutation pg (map flat (passed steps dx dy))) by (apply page_passed; exact HA).
    assert (Hin : forall v, In v pg -> exists m, In m (passed steps dx dy) /\ v = flat m).
    { intros v Hv. apply (Permutation_in _ P) in Hv. apply List.in_map_iff in Hv. destruct Hv as (m & <- & Hm). eauto. }
    assert (Hni : forall m, In m (passed steps dx dy) -> In (flat m) pg).
    { intros m Hm. apply (Permutation_in _ (Permutation_sym P)). apply List.in_map. exact Hm. }
    assert (Len : length pg = length (passed steps dx dy)) by (rewrite (Permutation_length P), map_length; reflexivity).
    assert (NE : (length pg =? 0)%nat = false).
    { apply Nat.eqb_neq. rewrite Len. pose proof (passed_nonempty dx dy N0). destruct (passed steps dx dy); [congruence|discriminate]. }
    destruct (rough_loop_spec (fst a) (snd a) pg 0) as [[(v & Hv & L) E]|[L E]].
    - intros v Hv. destruct (Hin v Hv) as (m & Hm & ->). apply (passed_on_map a b m Ma Mb Hm).
    - right. rewrite E. cbn [bind]. split; [|reflexivity]. intros (_ & _ & _ & _ & F). fold dx dy in F.
      destruct (Hin v Hv) as (m & Hm & ->). specialize (F m Hm). unfold flat in L. cbn [vx vy nth] in L. lia.
    - left. rewrite E. cbn [bind]. match goal with |- context [if ?b then UB else _] => replace b with false by (symmetry; exact NE) end. split.
      + split; [intros ->; apply N0; unfold dx, dy; f_equal; lia|]. split; [exact Ma|]. split; [exact Mb|]. split; [exact E1|].
        intros m Hm. apply (L _ (Hni m Hm)).
      + do 2 f_equal. unfold MakePlanSrvProps.hop_cost, euclid_rough, len2. fold dx dy. match goal with |- context [(100 * INR ?l)%R] => replace l with (length (passed steps dx dy)) by (symmetry; exact Len) end. rewrite Z.add_0_l.
        assert (S : fold_right Z.add 0 (map (fun v => cost (fst a + vx v, snd a + vy v)) pg) =
                    fold_right Z.add 0 (map (fun m => cost (fst a + fst m, snd a + snd m)) (passed steps dx dy))).
        { rewrite (fold_add_perm _ _ (Permutation_map _ P)), map_map. reflexivity. }
        rewrite S. set (T := IZR (fold_right _ _ _)). set (q := sqrt _).
        assert (NZ : INR (length (passed steps dx dy)) <> 0%R).
        { apply not_0_INR. rewrite <- Len. apply Nat.eqb_neq. exact NE. }
        field. exact NZ.
  Qed.

  Lemma total_nonneg (f : cell -> Z) l : (forall c, 0 <= f c) -> 0 <= fold_right Z.add 0 (map f l).
  Proof. intros F. induction l as [|c l IH]; cbn; [lia|]. specialize (F c). lia. Qed.

  Lemma hop_cost_ge a b : (coef * sqrt (IZR ((fst b - fst a) * (fst b - fst a) + (snd b - snd a) * (snd b - snd a))) <= hop_cost a b)%R.
  Proof.
    unfold MakePlanSrvProps.hop_cost. set (dx := fst b - fst a). set (dy := snd b - snd a).
    set (q := sqrt _). assert (Q0 : (0 <= q)%R) by apply sqrt_pos.
    set (T := fold_right _ _ _). assert (T0 : (0 <= IZR T)%R) by (apply IZR_le, total_nonneg; intros c; apply Hcost).
    assert (I0 : (0 <= INR (length (passed steps dx dy)))%R) by apply pos_INR.
    assert (Mn : (0 <= IZR T / INR (length (passed steps dx dy)))%R).
    { unfold Rdiv. apply Rmult_le_pos; [exact T0|].
      destruct (Req_dec (INR (length (passed steps dx dy))) 0) as [->|N]; [rewrite Rinv_0; lra|].
      apply Rlt_le, Rinv_0_lt_compat. lra. }
    assert (0 <= weight * (res * q) * (IZR T / INR (length (passed steps dx dy)) / 100))%R; [|lra].
    apply Rmult_le_pos; [apply Rmult_le_pos; [exact Hw|apply Rmult_le_pos; assumption]|lra].
  Qed.
  Lemma hop_cost_nonneg a b : (0 <= hop_cost a b)%R.
  Proof.
    eapply Rle_trans; [|apply hop_cost_ge]. apply Rmult_le_pos; [exact Hcoef|apply sqrt_pos].
  Qed.

  (** *** Moves of the search are hops *)
  Notation at_ t c := [fst c; snd c; t].

  Lemma rough_list_mem d : In d (rough_list range) <-> exists x y, d = [x; y; 0] /\ x * x + y * y <= range * range.
  Proof.
    clear - Hr. unfold rough_list. rewrite List.in_map_iff. split.
    - intros ([x y] & <- & Hf). apply filter_In in Hf. exists x, y. split; [reflexivity|]. lia.
    - intros (x & y & -> & L). exists (x, y). split; [reflexivity|]. apply filter_In. split; [|lia].
      apply in_prod; apply in_range_incl; nia.
  Qed.

  Lemma valid_at t c : valid [W; H; A] (at_ t c) <-> on_map c /\ 0 <= t < A.
  Proof.
    clear. unfold valid, MakePlanSrvProps.on_map. split.
    - intros X. inversion X as [|? ? ? ? X1 X2]; subst. inversion X2 as [|? ? ? ? X3 X4]; subst. inversion X4; subst. auto.
    - intros [[X Y] T]. repeat constructor; lia.
  Qed.

  Lemma admissible_some x : (0 <= x)%R -> admissible_value KR (Some x).
  Proof. intros X. split; [|reflexivity]. cbn. unfold rb. destruct (Rlt_dec x 0); [lra|reflexivity]. Qed.
  Lemma admissible_neg : ~ admissible_value KR (Some (-1)%R).
  Proof. intros [X _]. cbn in X. unfold rb in X. destruct (Rlt_dec (-1) 0); [discriminate|lra]. Qed.

  Lemma estim_nonneg p e : exists x, estim2d coef p e = Some x /\ (0 <= x)%R.
  Proof. eexists. split; [reflexivity|]. unfold euclid_rough, len2. apply Rmult_le_pos; [apply sqrt_pos|exact Hcoef]. Qed.

  Lemma move_iff ss e a t q : on_map a -> 0 <= t < A ->
    move KR 2 [W; H; A] M ss e (at_ t a) q <-> exists b, q = at_ t b /\ hop a b.
  Proof.
    intros Ma Ht. split.
    - intros ((d & Hd & Hcan) & Vq & _ & Hc). cbn [m_searchGrids model2d] in Hd. apply rough_list_mem in Hd.
      destruct Hd as (x & y & -> & L). destruct Hcan as [Len Hcan]. cbn [plus] in *.
      destruct q as [|q0 [|q1 [|q2 [|]]]]; try discriminate Len.
      pose proof (Hcan 0%nat _ _ _ eq_refl eq_refl eq_refl) as E0. pose proof (Hcan 1%nat _ _ _ eq_refl eq_refl eq_refl) as E1.
      pose proof (Hcan 2%nat _ _ _ eq_refl eq_refl eq_refl) as [E2 R2]. cbn in E0, E1.
      assert (q2 = t) as ->.
      { destruct E2 as [k E2]. unfold unsigned_range in R2. assert (k = 0); [|lia]. destruct (Z.lt_trichotomy k 0) as [K|[K|K]]; [|exact K|]; exfalso; nia. }
      exists (q0, q1). split; [reflexivity|]. change [q0; q1; t] with (at_ t (q0, q1)) in *. apply valid_at in Vq.
      destruct (cost2d_spec a (q0, q1) t t Ma (proj1 Vq)) as [[Hh _]|[_ Ec]]; [exact Hh|].
      exfalso. cbn [m_cost model2d] in Hc. rewrite Ec in Hc. exact (admissible_neg Hc).
    - intros (b & -> & Hh). pose proof Hh as (_ & _ & Mb & L & _). split; [|split; [|split]].
      + exists [fst b - fst a; snd b - snd a; 0]. split; [apply rough_list_mem; eauto|]. split; [reflexivity|].
        intros [|[|[|[|]]]] ev r xv; cbn; intros X1 X2 X3; try discriminate; injection X1 as <-; injection X2 as <-; injection X3 as <-.
        * cbn. lia.
        * cbn. lia.
        * cbn. split; [exists 0; lia|exact Ht].
      + apply valid_at. auto.
      + cbn [m_costEstim model2d]. destruct (estim_nonneg (at_ t b) e) as (x & -> & X). apply admissible_some. exact X.
      + cbn [m_cost model2d]. destruct (cost2d_spec a b t t Ma Mb) as [[_ ->]|[N _]]; [|contradiction].
        apply admissible_some. apply hop_cost_nonneg.
  Qed.

  Lemma moves_hops ss e t : 0 <= t < A -> forall l a, on_map a ->
    (linked (move KR 2 [W; H; A] M ss e) (at_ t a :: l) <-> exists cs, l = map (fun c => at_ t c) cs /\ linked hop (a :: cs)).
  Proof.
    intros Ht. induction l as [|q l IH]; intros a Ma.
    - split; [intros _; exists []; split; [reflexivity|exact I]|intros _; exact I].
    - split.
      + intros [HM HL]. apply move_iff in HM; [|exact Ma|exact Ht]. destruct HM as (b & -> & Hh).
        assert (Mb : on_map b) by apply Hh. apply (IH b Mb) in HL. destruct HL as (cs & -> & HL).
        exists (b :: cs). split; [reflexivity|]. split; assumption.
      + intros ([|b cs] & E & HL); [discriminate|]. cbn [map] in E.
        assert (q = at_ t b /\ l = map (fun c => at_ t c) cs) as [-> ->] by (split; congruence).
        destruct HL as [Hh HL]. assert (Mb : on_map b) by apply Hh. split.
        * apply move_iff; eauto.
        * apply (IH b Mb). eauto.
  Qed.

  Lemma route_cost_hops ss e t : forall cs a c, linked hop (a :: cs) ->
    route_cost KR M ss e (Some c) (map (fun x => at_ t x) (a :: cs)) = Some (c + way_cost cost coef res weight steps (a :: cs))%R.
  Proof.
    induction cs as [|b cs IH]; intros a c HL; cbn [map route_cost way_cost].
    - f_equal. lra.
    - destruct HL as [Hh HL]. cbn [m_cost model2d].
      destruct (cost2d_spec a b t t) as [[_ ->]|[N _]]; [apply Hh|apply Hh| |contradiction].
      cbn [fadd KR radd]. etransitivity; [apply (IH b _ HL)|]. f_equal. cbn [way_cost]. lra.
  Qed.

  Lemma estim_tri ax ay bx by_ cx cy :
    (len2 (cx - ax) (cy - ay) <= len2 (bx - ax) (by_ - ay) + len2 (cx - bx) (cy - by_))%R.
  Proof.
    assert (D : forall x y u v, len2 (u - x) (v - y) = dist_euc (IZR x) (IZR y) (IZR u) (IZR v)).
    { intros x y u v. unfold len2, dist_euc. f_equal. rewrite plus_IZR, !mult_IZR, !minus_IZR. unfold Rsqr. ring. }
    rewrite !D. apply triangle.
  Qed.

  Lemma consistent ss e p n : valid [W; H; A] p -> move KR 2 [W; H; A] M ss e p n ->
    fleb KR (m_costEstim M p e) (fadd KR (m_cost M p n ss e) (m_costEstim M n e)) = true.
  Proof.
    intros Vp HM. assert (exists t a, p = at_ t a) as (t & a & ->).
    { inversion Vp as [|? x ? l1 _ V1]; subst. inversion V1 as [|? y ? l2 _ V2]; subst. inversion V2 as [|? t ? l3 _ V3]; subst.
      inversion V3; subst. exists t, (x, y). reflexivity. }
    apply valid_at in Vp. destruct Vp as [Ma Ht]. apply move_iff in HM; [|exact Ma|exact Ht]. destruct HM as (b & -> & Hh).
    cbn [m_cost m_costEstim model2d]. destruct (cost2d_spec a b t t) as [[_ ->]|[N _]]; [exact Ma|apply Hh| |contradiction].
    unfold estim2d. cbn [fadd fleb KR radd rleb].
    change (vx (at_ t a)) with (fst a). change (vy (at_ t a)) with (snd a). change (vx (at_ t b)) with (fst b). change (vy (at_ t b)) with (snd b). unfold rb.
    match goal with |- context [Rle_dec ?u ?v] => destruct (Rle_dec u v) as [|G] end; [reflexivity|]. exfalso. apply G. clear G.
    pose proof (hop_cost_ge a b) as G1. unfold euclid_rough.
    pose proof (estim_tri (fst a) (snd a) (fst b) (snd b) (vx e) (vy e)) as G2.
    apply (Rmult_le_compat_r coef) in G2; [|exact Hcoef]. fold (len2 (fst b - fst a) (snd b - snd a)) in G1. lra.
  Qed.

  Lemma last_at t s : forall k : list cell, last (map (fun x => at_ t x) k) (at_ t s) = at_ t (last k s).
  Proof. induction k as [|x k IH]; [reflexivity|]. destruct k; [reflexivity|]. exact IH. Qed.

  Lemma way_route ss e t s c q : on_map s -> 0 <= t < A -> In (at_ t s, c) ss ->
    forall l, route KR 2 [W; H; A] M ss e (at_ t s) c q l <->
      exists b cs, q = at_ t b /\ l = map (fun x => at_ t x) cs /\ way W H range cost steps s b cs.
  Proof.
    intros Ms Ht Hin l. split.
    - intros (_ & Hd & Hl & HL). destruct l as [|p l]; [discriminate|]. cbn in Hd.
      assert (p = at_ t s) as -> by congruence. apply moves_hops in HL; [|exact Ht|exact Ms]. destruct HL as (cs & -> & HL).
      exists (last (s :: cs) s), (s :: cs). split; [|split; [reflexivity|split; [reflexivity|split; [reflexivity|exact HL]]]].
      rewrite <- Hl. change (at_ t s :: map (fun c0 => at_ t c0) cs) with (map (fun c0 => at_ t c0) (s :: cs)).
      apply last_at.
    - intros (b & cs & -> & -> & Hd & Hl & HL). destruct cs as [|x cs]; [discriminate|]. cbn in Hd. assert (x = s) as -> by congruence.
      split; [exact Hin|]. split; [reflexivity|]. split.
      + rewrite <- Hl. apply last_at.
      + cbn [map]. apply moves_hops; [exact Ht|exact Ms|]. eauto.
  Qed.
End Cost.

(** *** The service *)
Lemma KR_order : order_laws KR.
Proof.
  split; [intros [a|]|intros [a|] [b|] [c|]|reflexivity|intros [a|]]; cbn; intros; try reflexivity; try discriminate; unfold rb in *; rdec.
Qed.

(** What is assumed of the parameters: sizes that fit, non-negative weights, at least one step per motion, costs from 0 to 100, a finite
    distance between poses, and the cost of a cell at most that of any pose in it. *)
Definition settings_ok (W H A range : Z) (rough : cell -> Z) (coef res weight : R) (steps : Z -> Z -> Z)
    (euclid : cell3 -> option R) (racc : Z) (cm : cell3 -> Z) : Prop :=
  0 < W <= 2 ^ 30 /\ 0 < H <= 2 ^ 30 /\ 0 < A <= 2 ^ 30 /\ 0 <= range <= 2 ^ 30 /\
  (0 <= coef)%R /\ (0 <= res)%R /\ (0 <= weight)%R /\
  (forall dx dy, (dx, dy) <> (0, 0) -> 0 < steps dx dy) /\
  (forall c, 0 <= rough c <= 100) /\ (forall c t, 0 <= t < A -> rough c <= cm (c, t)) /\ (forall c, cm c <= 100) /\ racc <= 100 /\
  (forall d, d <> ((0, 0), 0) -> exists x, euclid d = Some x).

(** [q] is where the service plans from or to for a request with cell [p]: the cell itself with orientation 0 unless it is occupied, else the
    pose relocation picks (C14). *)
Definition taken_for W H A range rough euclid racc cm tol tol_angle (p : cell3) (q : cell3) : Prop :=
  (rough (fst p) <> 100 /\ q = (fst p, 0) \/
   rough (fst p) = 100 /\ relocate KR euclid W H A range racc cm rough true p tol tol_angle = Ok (PRelocated, q)) /\
  range <= fst (fst p) < W - range /\ range <= snd (fst p) < H - range.

Section Service.
  Variables W H A range : Z.
  Variable rough : cell -> Z.
  Variables coef res weight : R.
  Variable steps : Z -> Z -> Z.
  Variable istep : Z.
  Variable euclid : cell3 -> option R.
  Variable racc : Z.
  Variable cm : cell3 -> Z.
  Variables tol tol_angle : Z.
  Hypothesis OK : settings_ok W H A range rough coef res weight steps euclid racc cm.
  Hypothesis Htol : 0 <= tol.
  Notation rel p := (relocate KR euclid W H A range racc cm rough true p tol tol_angle).
  Notation taken := (taken_for W H A range rough euclid racc cm tol tol_angle).
  Notation at_ t c := [fst c; snd c; t].
  Notation M := (model2d W H A range rough coef res weight steps istep).

  Lemma relocated p : exists st q, rel p = Ok (st, q) /\
    match st with
    | POk | PRelocated => taken p q /\ on_map W H (fst q) /\ 0 <= snd q < A /\ rough (fst q) <= 99
    | _ => forall q', ~ taken p q'
    end.
  Proof.
    destruct OK as (HW & HH & HA & HR & _ & _ & _ & _ & Hc & Hrc & Hcm & Hra & He). destruct p as [p t0].
    destruct (C14_rough_relocation_is_free_and_nearest KR euclid W H A range racc cm rough p t0 tol tol_angle KR_order (proj1 HA) Htol) as (st & q & E & P);
      [intros d Hd; destruct (He d Hd) as [x ->]; reflexivity|exact Hcm|exact Hra|].
    exists st, q. split; [exact E|]. cbv zeta in P. destruct st.
    - destruct P as (-> & [Ix Iy] & N). split; [split; [left; split; [exact N|reflexivity]|split; assumption]|].
      cbn [fst snd]. split; [split; lia|]. split; [lia|]. specialize (Hc p). lia.
    - destruct P as ([Ix Iy] & N & Q & P). split; [split; [right; split; [exact N|exact E]|split; assumption]|].
      assert (X : exists d limit, acceptable_pose W H A range cm (p, 0) tol tol_angle 0 limit d q).
      { destruct P as [(d & P & _)|(_ & d & P & _)]; eauto. }
      destruct X as (d & limit & X). destruct d as [[dx dy] dt], q as [[x y] t]. unfold acceptable_pose in X. cbn [fst snd] in *.
      split; [split; cbn [fst snd]; lia|]. split; [lia|]. specialize (Hrc (x, y) t). lia.
    - intros q' [[[N _]|[_ E']] _]; cbn [fst] in *; [destruct P as (_ & _ & N' & _); contradiction|]. rewrite E in E'. discriminate.
    - intros q' (_ & I1). cbn [fst] in I1. destruct P as (_ & P). apply P. exact I1.
  Qed.

  Lemma canon_self t c : 0 <= t < A -> canon unsigned_range 2 (at_ t c) [W; H; A] (at_ t c).
  Proof.
    intros Ht. split; [reflexivity|].
    intros [|[|[|[|]]]] ev r xv; cbn; intros X1 X2 X3; try discriminate; injection X1 as <-; injection X2 as <-; injection X3 as <-; cbn; auto.
    split; [exists 0; lia|exact Ht].
  Qed.
  Lemma typed s t e u : well_typed 2 [W; H; A] M [(at_ t s, fzero KR)] (at_ u e).
  Proof.
    destruct OK as (HW & HH & HA & HR & _). split; [simpl; lia|]. split; [repeat constructor; lia|]. split; [reflexivity|].
    split; [repeat constructor|]. intros p ss e' d Hd. cbn [m_searchGrids model2d] in Hd. apply (rough_list_mem range (proj1 HR)) in Hd.
    destruct Hd as (x & y & -> & L). split; [reflexivity|]. repeat constructor; nia.
  Qed.
  Lemma wrapped_self s t : 0 <= t < A -> wrapped_starts 2 [W; H; A] [(at_ t s, fzero KR)] [(at_ t s, fzero KR)].
  Proof. intros Ht. constructor; [|constructor]. split; [apply canon_self; exact Ht|reflexivity]. Qed.

  Notation plan find_best fuel O ntask s0 e0 :=
    (make_plan W H A range rough coef res weight steps istep euclid racc cm tol_angle find_best fuel O ntask 0 true true s0 e0 tol).
  Notation way := (way W H range rough steps).
  Notation cost_of := (way_cost rough coef res weight steps).

  Lemma plan_run find_best fuel O ntask s0 e0 path : plan find_best fuel O ntask s0 e0 = Ok (Some (MPlan path)) ->
    exists s e, (taken s0 s /\ on_map W H (fst s) /\ 0 <= snd s < A /\ rough (fst s) <= 99) /\
      (taken e0 e /\ on_map W H (fst e) /\ 0 <= snd e < A /\ rough (fst e) <= 99) /\
      exists ab, search KR 2 [W; H; A] M fuel O ntask 0 (fzero KR) [(to_vec s, fzero KR)] (to_vec e) find_best = SDone true ab path.
  Proof.
    intros E. unfold make_plan in E. cbn [negb] in E.
    destruct (relocated s0) as (st & s & Es & Ps). destruct (relocated e0) as (et & e & Ee & Pe).
    rewrite Es in E. cbn [bind] in E. rewrite Ee in E. cbn [bind fst snd] in E.
    assert (G : match search KR 2 [W; H; A] M fuel O ntask 0 (fzero KR) [(to_vec s, fzero KR)] (to_vec e) find_best with
                | SDone true ab p => path = p | _ => False end /\
      (taken s0 s /\ on_map W H (fst s) /\ 0 <= snd s < A /\ rough (fst s) <= 99) /\ (taken e0 e /\ on_map W H (fst e) /\ 0 <= snd e < A /\ rough (fst e) <= 99)).
    { destruct st, et; try discriminate E; (split; [|split; assumption]);
        (destruct (search KR _ _ _ _ _ _ _ _ _ _ _) as [[|] ab p| |]; [congruence|discriminate|discriminate|discriminate]). }
    destruct G as (G & Gs & Ge). exists s, e. split; [exact Gs|]. split; [exact Ge|].
    destruct (search KR _ _ _ _ _ _ _ _ _ _ _) as [[|] ab p| |]; try contradiction. subst p. eauto.
  Qed.

  Lemma routes_ways s e t u c q l : on_map W H s -> 0 <= t < A ->
    route KR 2 [W; H; A] M [(at_ t s, c)] e (at_ t s) c (at_ u q) l <-> exists cs, u = t /\ l = map (fun x => at_ t x) cs /\ way s q cs.
  Proof.
    destruct OK as (HW & HH & HA & HR & C1 & C2 & C3 & St & Hc & _). intros Ms Ht.
    rewrite (way_route W H A range rough coef res weight steps istep) by
      (solve [exact (proj1 HA)|exact (proj1 HR)|exact St|intros x; apply Hc|exact C1|exact C2|exact C3|exact Ms|exact Ht|left; reflexivity]).
    split.
    - intros (b & cs & Eq & El & Hw). exists cs. destruct q as [x y], b as [x' y']. cbn [fst snd] in Eq.
      assert (x = x' /\ y = y' /\ u = t) as (-> & -> & ->) by (repeat split; congruence). auto.
    - intros (cs & -> & -> & Hw). exists q, cs. auto.
  Qed.

  (** C74: with one search task, a returned plan is a way over cells of the map that passes no obstacle, from the (possibly relocated) start
      to the (possibly relocated) goal, and no such way is cheaper. *)
  Theorem C74_plan_is_a_cheapest_way find_best fuel O s0 e0 path :
    fair_sched O -> min_pick KR O -> plan find_best fuel O 1 s0 e0 = Ok (Some (MPlan path)) ->
    exists s e t cs, taken s0 (s, t) /\ taken e0 (e, t) /\ path = map (fun c => [fst c; snd c; t]) cs /\ way s e cs /\
      forall l, way s e l -> (cost_of cs <= cost_of l)%R.
  Proof.
    intros HO HM E. pose proof OK as (HW & HH & HA & HR & C1 & C2 & C3 & St & Hc & _). apply plan_run in E. destruct E as ([s t] & [e u] & (Ts & Ms & Rs & _) & (Te & Me & Re & _) & ab & E).
    cbn [fst snd] in *. unfold to_vec in E. cbn [fst snd] in E.
    destruct (C07_optimal_single_start_partial KR KR_laws KR_exact 2 [W; H; A] M (at_ t s, fzero KR) (at_ u e) fuel O (fzero KR) find_best ab path
      (typed s t e u) HO HM) with (s0 := at_ t s) (e := at_ u e) as [Rt Best].
    - cbn. unfold rb. destruct (Rle_dec 0 0); [reflexivity|lra].
    - cbn. unfold rb. destruct (Rle_dec 0 0); [reflexivity|lra].
    - reflexivity.
    - exact E.
    - apply canon_self. exact Rs.
    - apply canon_self. exact Re.
    - intros p n Vp Hm. eapply consistent; try eassumption; try (solve [exact (proj1 HA)|exact (proj1 HR)|intros x; apply Hc]).
    - cbn [m_costEstim model2d]. unfold estim2d. cbn [fltb KR rltb fzero]. unfold rb.
      match goal with |- context [Rlt_dec ?a ?b] => destruct (Rlt_dec a b) as [G|] end; [|reflexivity]. exfalso.
      unfold euclid_rough in G. assert (0 <= len2 (vx (at_ u e) - vx (at_ t s)) (vy (at_ u e) - vy (at_ t s)) * coef)%R; [|lra].
      apply Rmult_le_pos; [apply sqrt_pos|exact C1].
    - cbn [snd] in Rt, Best. apply routes_ways in Rt; [|exact Ms|exact Rs]. destruct Rt as (cs & -> & -> & Hway).
      exists s, e, t, cs. split; [exact Ts|]. split; [exact Te|]. split; [reflexivity|]. split; [exact Hway|].
      intros l Hl. specialize (Best (map (fun x => at_ t x) l)). cbn [fst snd] in Best.
      assert (Rl : route KR 2 [W; H; A] M [(at_ t s, fzero KR)] (at_ t e) (at_ t s) (fzero KR) (at_ t e) (map (fun x => at_ t x) l)).
      { apply routes_ways; [exact Ms|exact Rs|]. exists l. auto. }
      specialize (Best Rl).
      assert (RC : forall k, way s e k -> route_cost KR M [(at_ t s, fzero KR)] (at_ t e) (fzero KR) (map (fun x => at_ t x) k) = Some (cost_of k)).
      { intros k (Hd & _ & HL). destruct k as [|a k]; [discriminate|].
        etransitivity; [eapply route_cost_hops; try eassumption; try (solve [exact (proj1 HA)|exact (proj1 HR)|intros x; apply Hc])|].
        f_equal. lra. }
      rewrite (RC cs Hway), (RC l Hl) in Best. cbn [fleb KR rleb] in Best. unfold rb in Best.
      destruct (Rle_dec (cost_of cs) (cost_of l)); [assumption|discriminate].
  Qed.

  (** C74: for any number of search tasks and any schedule, the service answers, and its answer is right: a plan is a way without
      obstacles; "start (goal) not on the map or in rock" means that there is no pose to start (end) at; "unreachable" means that the
      start and the goal taken are the same pose, or have different orientations, or that there is no way between them. *)
  Theorem C74_the_answer_is_right s0 e0 : (coef * sqrt (IZR (W * W + H * H)) < 2147483648)%R ->
    exists fuel0, forall find_best fuel O ntask, (fuel0 <= fuel)%nat -> fair_sched O -> (1 <= ntask)%nat -> (forall n, o_abort O n = false) ->
    exists answer, plan find_best fuel O ntask s0 e0 = Ok (Some answer) /\
      match answer with
      | MNoMap | MWrongFrame => False
      | MStartOff | MStartRock => forall q, ~ taken s0 q
      | MGoalOff | MGoalRock => forall q, ~ taken e0 q
      | MUnreachable => exists s e, taken s0 s /\ taken e0 e /\ (s = e \/ snd s <> snd e \/ forall cs, ~ way (fst s) (fst e) cs)
      | MPlan path => exists s e t cs, taken s0 (s, t) /\ taken e0 (e, t) /\ s <> e /\ path = map (fun c => [fst c; snd c; t]) cs /\ way s e cs
      end.
  Proof.
    intros Small. pose proof OK as (HW & HH & HA & HR & C1 & C2 & C3 & St & Hc & _).
    destruct (relocated s0) as (st & [s t] & Es & Ps). destruct (relocated e0) as (et & [e u] & Ee & Pe).
    assert (Run : forall find_best fuel O ntask, plan find_best fuel O ntask s0 e0 =
      match st with
      | POutOfMap => Ok (Some MStartOff) | PInRock => Ok (Some MStartRock)
      | _ => match et with
             | POutOfMap => Ok (Some MGoalOff) | PInRock => Ok (Some MGoalRock)
             | _ => match search KR 2 [W; H; A] M fuel O ntask 0 (fzero KR) [(at_ t s, fzero KR)] (at_ u e) find_best with
                    | SUB => UB | SFuel => Ok None | SDone false _ _ => Ok (Some MUnreachable) | SDone true _ path => Ok (Some (MPlan path)) end
             end
      end).
    { intros. unfold make_plan. cbn [negb]. rewrite Es. cbn [bind]. rewrite Ee. reflexivity. }
    destruct (match st with PInRock | POutOfMap => true | _ => false end) eqn:Bs.
    { exists 0%nat. intros. rewrite Run. destruct st; try discriminate Bs; (eexists; split; [reflexivity|exact Ps]). }
    destruct (match et with PInRock | POutOfMap => true | _ => false end) eqn:Be.
    { exists 0%nat. intros. rewrite Run. destruct st; try discriminate Bs; (destruct et; try discriminate Be; (eexists; split; [reflexivity|exact Pe])). }
    assert (Ps' : taken s0 (s, t) /\ on_map W H s /\ 0 <= t < A) by (destruct st; try discriminate Bs; tauto).
    assert (Pe' : taken e0 (e, u) /\ on_map W H e /\ 0 <= u < A) by (destruct et; try discriminate Be; tauto).
    assert (Run' : forall find_best fuel O ntask, plan find_best fuel O ntask s0 e0 =
      match search KR 2 [W; H; A] M fuel O ntask 0 (fzero KR) [(at_ t s, fzero KR)] (at_ u e) find_best with
      | SUB => UB | SFuel => Ok None | SDone false _ _ => Ok (Some MUnreachable) | SDone true _ path => Ok (Some (MPlan path)) end).
    { intros. rewrite Run. destruct st; try discriminate Bs; destruct et; try discriminate Be; reflexivity. }
    clear Run Bs Be Ps Pe Es Ee st et. destruct Ps' as (Ts & Ms & Rs), Pe' as (Te & Me & Re).
    destruct (list_eq_dec Z.eq_dec (at_ t s) (at_ u e)) as [Eq|Neq].
    { exists 0%nat. intros. rewrite Run'. exists MUnreachable.
      assert (E : (s, t) = (e, u)). { destruct s, e. cbn [fst snd] in Eq. congruence. }
      split; [|exists (s, t), (e, u); auto].
      unfold search. assert (Cy : cycleUnsigned 2 (at_ u e) [W; H; A] = Ok (at_ u e)).
      { apply cycleUnsigned_iff; [reflexivity| |apply canon_self; exact Re].
        intros [|[|[|i]]] r Hi; cbn; intros X; try discriminate; try (destruct i; discriminate); injection X as <-; lia. }
      rewrite Cy. cbn [init_starts]. destruct (vec_dec (at_ t s) (at_ u e)); [reflexivity|contradiction]. }
    assert (Fin : forall s' e', canon unsigned_range 2 (at_ t s) [W; H; A] s' -> canon unsigned_range 2 (at_ u e) [W; H; A] e' -> s' = at_ t s /\ e' = at_ u e).
    { assert (Pos : forall i r, (2 <= i)%nat -> nth_error [W; H; A] i = Some r -> 0 < r).
      { intros [|[|[|i]]] r Hi; cbn; intros X; try discriminate; try (destruct i; discriminate); injection X as <-; lia. }
      intros s' e' X Y. apply cycleUnsigned_iff in X; [|reflexivity|exact Pos]. apply cycleUnsigned_iff in Y; [|reflexivity|exact Pos].
      pose proof (canon_self t s Rs) as X'. pose proof (canon_self u e Re) as Y'.
      apply cycleUnsigned_iff in X'; [|reflexivity|exact Pos]. apply cycleUnsigned_iff in Y'; [|reflexivity|exact Pos]. split; congruence. }
    destruct (C08_search_decides_reachability KR KR_laws KR_exact KR_leave 2 [W; H; A] M [(at_ t s, fzero KR)] (at_ u e) (typed s t e u)) as (fuel0 & Dec).
    - constructor; [|constructor]. split; [|reflexivity]. cbn. unfold rb. destruct (Rle_dec 0 0); [reflexivity|lra].
    - constructor; [exact Neq|constructor].
    - intros ss Hss. inversion Hss as [|? ? ? ? _ X]; subst. inversion X; subst. constructor; [intros []|constructor].
    - intros x s' e' [<-|[]] X Y. cbn [fst] in X. destruct (Fin s' e' X Y) as [-> ->]. split; [apply valid_at; auto|].
      cbn [m_costEstim model2d]. unfold estim2d.
      set (v := euclid_rough coef _ _).
      assert (V0 : (0 <= v)%R) by (unfold v, euclid_rough; apply Rmult_le_pos; [apply sqrt_pos|exact C1]).
      assert (V1 : (v < 2147483648)%R).
      { eapply Rle_lt_trans; [|exact Small]. unfold v, euclid_rough, len2. rewrite Rmult_comm. apply Rmult_le_compat_l; [exact C1|].
        apply sqrt_le_1_alt, IZR_le. change (vx (at_ u e)) with (fst e). change (vx (at_ t s)) with (fst s).
        change (vy (at_ u e)) with (snd e). change (vy (at_ t s)) with (snd s). destruct Ms, Me. nia. }
      split.
      + cbn [fltb KR rltb fzero]. unfold rb. destruct (Rlt_dec v 0); [lra|reflexivity].
      + cbn [ftrunc KR]. unfold rtrunc. destruct (base_Int_part v) as [B1 B2].
        assert (T : rtruncZ v = Int_part v) by (unfold rtruncZ; destruct (Rle_dec 0 v); [reflexivity|contradiction]). rewrite T.
        assert (L1 : -1 < Int_part v) by (apply lt_IZR; lra).
        assert (L2 : Int_part v < 2147483648) by (apply lt_IZR; lra).
        replace (_ && _) with true by lia. eauto.
    - exists fuel0. intros find_best fuel O ntask Hf HO Hn Ha.
      destruct (Dec fuel O ntask find_best Hf HO Hn Ha) as (ok & path & E & D). rewrite Run', E.
      specialize (D _ _ (wrapped_self s t Rs) (canon_self u e Re)). destruct D as [[-> (x & c & Rt)]|[-> Nr]].
      + eexists. split; [reflexivity|]. pose proof Rt as ([Hx|[]] & _). injection Hx as <- <-.
        apply routes_ways in Rt; [|exact Ms|exact Rs]. destruct Rt as (cs & -> & -> & Hw). exists s, e, t, cs.
        split; [exact Ts|]. split; [exact Te|]. split; [|split; [reflexivity|exact Hw]].
        intros ->. apply Neq. reflexivity.
      + eexists. split; [reflexivity|]. exists (s, t), (e, u). split; [exact Ts|]. split; [exact Te|]. right.
        destruct (Z.eq_dec t u) as [->|Nt]; [right|left; exact Nt]. cbn [fst]. intros cs Hw.
        apply (Nr (at_ u s) (fzero KR) (map (fun x => at_ u x) cs)). apply routes_ways; [exact Ms|exact Rs|]. eauto.
  Qed.

  Lemma plan_way find_best fuel O ntask s0 e0 path : fair_sched O -> plan find_best fuel O ntask s0 e0 = Ok (Some (MPlan path)) ->
    exists s e t cs, taken s0 (s, t) /\ taken e0 (e, t) /\ 0 <= t < A /\ rough e <= 99 /\ path = map (fun c => at_ t c) cs /\ way s e cs.
  Proof.
    intros HO E. pose proof OK as (HW & HH & HA & HR & C1 & C2 & C3 & St & Hc & _). apply plan_run in E.
    destruct E as ([s t] & [e u] & (Ts & Ms & Rs & _) & (Te & Me & Re & Fe) & ab & E).
    cbn [fst snd] in *. unfold to_vec in E. cbn [fst snd] in E.
    assert (Z0 : fleb KR (fzero KR) (fzero KR) = true) by (cbn; unfold rb; destruct (Rle_dec 0 0); [reflexivity|lra]).
    destruct (C06_path_ends_at_goal KR KR_laws KR_leave 2 [W; H; A] M fuel O ntask 0 (fzero KR) [(at_ t s, fzero KR)] (at_ u e) find_best ab path
      (typed s t e u) HO) as (ss & e' & W1 & W2 & (x & c & Rt) & _).
    - constructor; [exact Z0|constructor].
    - exact Z0.
    - intros x s' e' _ _ _. cbn [m_costEstim model2d]. unfold estim2d. cbn [fltb KR rltb fzero]. unfold rb.
      match goal with |- context [Rlt_dec ?a ?b] => destruct (Rlt_dec a b) as [G|] end; [|reflexivity]. exfalso.
      assert (0 <= euclid_rough coef (vx e' - vx s') (vy e' - vy s'))%R; [|lra].
      unfold euclid_rough. apply Rmult_le_pos; [apply sqrt_pos|exact C1].
    - exact E.
    - assert (Pos : forall i r, (2 <= i)%nat -> nth_error [W; H; A] i = Some r -> 0 < r).
      { intros [|[|[|i]]] r Hi; cbn; intros X; try discriminate; try (destruct i; discriminate); injection X as <-; lia. }
      assert (ss = [(at_ t s, fzero KR)]) as ->.
      { apply (wrapped_unique 2 [W; H; A] [(at_ t s, fzero KR)] Pos); [constructor; [reflexivity|constructor]|exact W1|apply wrapped_self; exact Rs]. }
      assert (e' = at_ u e) as ->.
      { pose proof (canon_self u e Re) as Y. apply cycleUnsigned_iff in Y; [|reflexivity|exact Pos].
        apply cycleUnsigned_iff in W2; [|reflexivity|exact Pos]. congruence. }
      pose proof Rt as ([Hx|[]] & _). injection Hx as <- <-.
      apply routes_ways in Rt; [|exact Ms|exact Rs]. destruct Rt as (cs & -> & -> & Hw).
      exists s, e, t, cs. auto 8.
  Qed.

  Lemma hop_from_free a b : hop W H range rough steps a b -> rough a <= 99.
  Proof.
    intros (N & Ma & Mb & _ & F). pose proof OK as (HW & HH & HA & HR & _ & _ & _ & St & _).
    assert (N0 : (fst b - fst a, snd b - snd a) <> (0, 0)).
    { intros X. apply N. destruct a, b. cbn [fst snd] in X. f_equal; [assert (z1 - z = 0) by congruence|assert (z2 - z0 = 0) by congruence]; lia. }
    set (dx := fst b - fst a) in *. set (dy := snd b - snd a) in *. specialize (St dx dy N0).
    assert (Z0 : forall z, lround (inject_Z z * (0 # Z.to_pos (steps dx dy))) = 0).
    { intros z. assert (Q0 : (inject_Z z * (0 # Z.to_pos (steps dx dy)) == inject_Z 0)%Q) by (unfold Qeq; cbn; lia).
      apply Z.le_antisymm; rewrite <- (lround_Z 0); apply lround_mono; rewrite Q0; apply Qle_refl. }
    specialize (F (along dx dy (steps dx dy) 0)). unfold along in F. rewrite !Z0 in F. cbn [fst snd] in F.
    rewrite !Z.add_0_r in F. destruct a. apply F. apply passed_mem. exists 0. unfold along. rewrite !Z0. split; [lia|]. split; [congruence|reflexivity].
  Qed.

  (** The motion cache has a straight motion for each displacement within the range that keeps the orientation (motion_cache.cpp:81-115). *)
  Definition straight_pages (C : cache) : Prop :=
    forall t dx dy, 0 <= t < A -> (dx, dy) <> (0, 0) -> dx * dx + dy * dy <= range * range ->
      assoc [dx; dy; t] (C t) = Some (build_page A istep [dx; dy; t] (straight_samples t [dx; dy; t] (steps dx dy))).

  Lemma interp_free C t : straight_pages C -> 0 <= t < A -> forall cs a r,
    linked (hop W H range rough steps) (a :: cs) -> on_map W H a -> rough (last (a :: cs) a) <= 99 ->
    interp_loop C A (at_ t a) (map (fun c => at_ t c) cs) = Ok r ->
    forall p, In p r -> exists c, on_map W H c /\ rough c <= 99 /\ in_cell A p [fst c; snd c; t].
  Proof.
    intros HC Ht. pose proof OK as (HW & HH & HA & HR & _).
    induction cs as [|b cs IH]; intros a r HL Ma Fe E p Hp.
    - cbn [map interp_loop] in E. assert (r = [lift (at_ t a)]) as -> by congruence. destruct Hp as [<-|[]].
      exists a. split; [exact Ma|]. split; [exact Fe|]. apply in_cell_lift. exact Ht.
    - destruct HL as [Hh HL]. pose proof Hh as (N & _ & Mb & L & F). cbn [map interp_loop] in E.
      destruct (segment C A (at_ t a) (at_ t b)) as [sg|] eqn:Es; [|discriminate E]. cbn [bind] in E.
      destruct (interp_loop C A (at_ t b) (map (fun c => at_ t c) cs)) as [r'|] eqn:Er; [|discriminate E]. cbn [bind] in E.
      assert (r = sg ++ r') as -> by congruence. apply in_app_or in Hp. destruct Hp as [Hp|Hp].
      2:{ apply (IH b r' HL Mb); [|exact Er|exact Hp].
          change (last (a :: b :: cs) a) with (last (b :: cs) a) in Fe.
          assert (G : forall (l : list cell) (x y z : cell), last (x :: l) y = last (x :: l) z)
            by (induction l as [|w l IHl]; intros x y z; [reflexivity|apply (IHl w)]).
          rewrite (G cs b b a). exact Fe. }
      assert (Fb : rough b <= 99).
      { destruct cs as [|c cs]; [exact Fe|]. destruct HL as [Hh' _]. apply (hop_from_free _ _ Hh'). }
      unfold segment in Es. change (vx (at_ t a)) with (fst a) in Es. change (vy (at_ t a)) with (snd a) in Es.
      change (vx (at_ t b)) with (fst b) in Es. change (vy (at_ t b)) with (snd b) in Es.
      assert (N0 : (fst b - fst a, snd b - snd a) <> (0, 0)).
      { intros X. apply N. destruct a, b. cbn [fst snd] in X. f_equal; [assert (z1 - z = 0) by congruence|assert (z2 - z0 = 0) by congruence]; lia. }
      destruct ((fst a =? fst b) && (snd a =? snd b)) eqn:Ex.
      { exfalso. apply N. destruct a, b. cbn [fst snd] in Ex. f_equal; lia. }
      unfold find_from in Es. rewrite find_yaw_spec in Es by lia. cbn [bind] in Es.
      change (vx (at_ t a)) with (fst a) in Es. change (vy (at_ t a)) with (snd a) in Es.
      change (vx (at_ t b)) with (fst b) in Es. change (vy (at_ t b)) with (snd b) in Es.
      change (vt (at_ t a)) with t in Es. change (vt (at_ t b)) with t in Es.
      rewrite Z.mod_small in Es by exact Ht.
      set (dx := fst b - fst a) in *. set (dy := snd b - snd a) in *.
      rewrite (HC t dx dy Ht N0 L) in Es.
      match type of Es with Ok ?x = Ok ?y => assert (y = x) as -> by congruence end. clear Es.
      apply List.in_map_iff in Hp. destruct Hp as (p0 & <- & Hp0).
      apply build_loop_interp in Hp0. destruct Hp0 as [[]|Hp0].
      unfold straight_samples in Hp0. apply List.in_map_iff in Hp0. destruct Hp0 as (k & <- & Hk). apply in_range_excl in Hk.
      change (vx [dx; dy; t]) with dx. change (vy [dx; dy; t]) with dy.
      set (p0 := mkPosef _ _ _). pose proof (in_cell_shift A (at_ t a) p0 _ (to_cell_in_cell A p0)) as IC.
      assert (TC : to_cell A p0 = [fst (along dx dy (steps dx dy) k); snd (along dx dy (steps dx dy) k); t]).
      { unfold to_cell, p0. cbn [px py pt]. rewrite lround_Z, Z.mod_small by exact Ht. reflexivity. }
      rewrite TC in IC. set (m := along dx dy (steps dx dy) k) in *.
      change (in_cell A (shift (at_ t a) p0) [fst a + fst m; snd a + snd m; t]) in IC.
      exists (fst a + fst m, snd a + snd m). cbn [fst snd]. split; [|split; [|exact IC]].
      + destruct (along_between dx dy (steps dx dy) k Hk) as [B1 B2]. fold m in B1, B2. destruct Ma, Mb. split; cbn [fst snd]; lia.
      + destruct (cell_eq_dec m (dx, dy)) as [Em|Nm].
        * rewrite Em. cbn [fst snd]. unfold dx, dy. replace (fst a + (fst b - fst a)) with (fst b) by lia.
          replace (snd a + (snd b - snd a)) with (snd b) by lia. destruct b. exact Fb.
        * apply F. apply passed_mem. exists k. auto.
  Qed.

  (** C74: for any number of search tasks and any schedule, each pose of the plan, after interpolation, lies in a cell of the map that is not an
      obstacle, and has the orientation the plan starts with. *)
  Theorem C74_plan_poses_lie_in_free_cells find_best fuel O ntask s0 e0 path C r :
    fair_sched O -> straight_pages C -> plan find_best fuel O ntask s0 e0 = Ok (Some (MPlan path)) -> interpolatePath C A path = Ok r ->
    exists s e t, taken s0 (s, t) /\ taken e0 (e, t) /\
      hd_error path = Some [fst s; snd s; t] /\ last path [] = [fst e; snd e; t] /\
      forall p, In p r -> exists c, on_map W H c /\ rough c <= 99 /\ in_cell A p [fst c; snd c; t].
  Proof.
    intros HO HC E Er. pose proof OK as (HW & HH & HA & HR & C1 & C2 & C3 & St & Hc & _).
    apply plan_way in E; [|exact HO]. destruct E as (s & e & t & cs & Ts & Te & Ht & Fe & -> & Hd & Hl & HL).
    destruct cs as [|a cs]; [discriminate|]. cbn in Hd. assert (a = s) as -> by congruence.
    assert (LL : last (map (fun c => at_ t c) (s :: cs)) [] = at_ t e).
    { rewrite <- Hl. clear. assert (G : forall k (x d : cell), last (map (fun c => at_ t c) (x :: k)) [] = at_ t (last (x :: k) d))
        by (induction k as [|b k IH]; intros x d; [reflexivity|exact (IH b d)]). apply G. }
    exists s, e, t. split; [exact Ts|]. split; [exact Te|]. split; [reflexivity|]. split; [exact LL|].
    intros p Hp. cbn [map interpolatePath] in Er.
    assert (Ms : on_map W H s).
    { destruct cs as [|b cs]; [|destruct HL as [Hh _]; apply Hh].
      destruct Te as [_ T2]. destruct Ts as [[[_ Q]|[_ Q]] T1].
      - assert (s = fst s0) as -> by congruence. split; lia.
      - destruct (relocated s0) as (st & q & E & P). rewrite Q in E.
        assert (st = PRelocated /\ q = (s, t)) as [-> ->] by (split; congruence). apply P. }
    apply (interp_free C t HC Ht cs s r HL Ms); [|exact Er|exact Hp].
    replace (last (s :: cs) s) with e by (symmetry; exact Hl). exact Fe.
  Qed.
End Service.

(** *** Concrete cases and findings *)
(** A heap over real priorities, one thread. *)
Fixpoint argminR (l : list (@entry (option R))) : nat :=
  match l with
  | [] => 0%nat
  | a :: l' => match l' with
               | [] => 0%nat
               | _ => if rltb (en_p (nth (argminR l') l' a)) (en_p a) then S (argminR l') else 0%nat
               end
  end.
Definition heapR : @oracle (option R) :=
  mkOracle (fun _ l => argminR l) (fun _ l => 0%nat) (fun _ cs => [cs]) (fun _ => false) (fun n => n).
Lemma argminR_lt l : l <> [] -> (argminR l < length l)%nat.
Proof.
  induction l as [|a l IH]; [congruence|]. intros _. simpl. destruct l as [|b l]; [lia|].
  specialize (IH ltac:(discriminate)). destruct (rltb _ _); simpl in *; lia.
Qed.
Lemma argminR_min l d : forall x, In x l -> rltb (en_p x) (en_p (nth (argminR l) l d)) = false.
Proof.
  assert (T : forall a b c, rltb a b = false -> rltb b c = false -> rltb a c = false)
    by (intros [a|] [b|] [c|]; simpl; intros; try discriminate; try reflexivity; rdec).
  assert (A1 : forall a b, rltb a b = true -> rltb b a = false)
    by (intros [a|] [b|]; simpl; intros; try discriminate; try reflexivity; rdec).
  assert (I1 : forall a, rltb a a = false) by (intros [a|]; simpl; [rdec|reflexivity]).
  revert d. induction l as [|a l IH]; intros d x Hx; [destruct Hx|]. destruct l as [|b l].
  - destruct Hx as [<-|[]]. simpl. apply I1.
  - change (argminR (a :: b :: l)) with (if rltb (en_p (nth (argminR (b :: l)) (b :: l) a)) (en_p a) then S (argminR (b :: l)) else 0%nat).
    destruct (rltb (en_p (nth (argminR (b :: l)) (b :: l) a)) (en_p a)) eqn:E.
    + change (nth (S (argminR (b :: l))) (a :: b :: l) d) with (nth (argminR (b :: l)) (b :: l) d). rewrite (nth_indep _ d a) by (apply argminR_lt; discriminate). destruct Hx as [<-|Hx]; [apply A1; exact E|apply IH; exact Hx].
    + change (nth 0 (a :: b :: l) d) with a. destruct Hx as [<-|Hx]; [apply I1|]. eapply T; [apply (IH a); exact Hx|exact E].
Qed.
Lemma remove_nth_nth {X} : forall (l : list X) n x r d, remove_nth n l = Some (x, r) -> x = nth n l d.
Proof.
  induction l as [|a l IH]; intros n x r d E; [discriminate|]. destruct n as [|n]; cbn in E |- *; [congruence|].
  destruct (remove_nth n l) as [[b r']|] eqn:E'; [|discriminate]. assert (x = b) as -> by congruence. eapply IH. exact E'.
Qed.
Example heapR_fair : fair_sched heapR.
Proof. intros loop cs. simpl. rewrite app_nil_r. apply Permutation_refl. Qed.
Example heapR_min : min_pick KR heapR.
Proof.
  intros loop open en rest E en' Hin. unfold take_at in E. cbn [o_pick heapR] in E.
  assert (NE : open <> []) by (intros ->; destruct Hin).
  rewrite Nat.mod_small in E by (apply argminR_lt; exact NE).
  rewrite (remove_nth_nth _ _ _ _ en E). apply argminR_min. exact Hin.
Qed.

(** A cache with these straight motions exists for any settings. *)
Definition straight_cache (A range istep : Z) (steps : Z -> Z -> Z) : cache := fun t =>
  map (fun c : cell => ([fst c; snd c; t], build_page A istep [fst c; snd c; t] (straight_samples t [fst c; snd c; t] (steps (fst c) (snd c)))))
    (list_prod (range_incl (- range) range) (range_incl (- range) range)).
Example straight_cache_pages A range istep steps : 0 <= range -> straight_pages A range steps istep (straight_cache A range istep steps).
Proof.
  intros Hr t dx dy Ht N L. unfold straight_cache.
  assert (Hin : In (dx, dy) (list_prod (range_incl (- range) range) (range_incl (- range) range))) by (apply in_prod; apply in_range_incl; nia).
  induction (list_prod _ _) as [|[x y] l IH]; [destruct Hin|]. cbn [map assoc fst snd].
  destruct (veq [x; y; t] [dx; dy; t]) eqn:E.
  - apply veq_true in E. assert (x = dx /\ y = dy) as [-> ->] by (split; congruence). reflexivity.
  - apply IH. destruct Hin as [Hin|Hin]; [|exact Hin]. exfalso. assert (x = dx /\ y = dy) as [-> ->] by (split; congruence).
    rewrite veq_refl in E. discriminate.
Qed.

Module MakePlanExample.
  Definition wall (c : cell) : Z := if cell_eq_dec c (2, 1) then 100 else if cell_eq_dec c (2, 2) then 30 else 0.
  Definition steps (dx dy : Z) : Z := 2.
  Definition dist (d : cell3) : option R := Some (IZR (fst (fst d) * fst (fst d) + snd (fst d) * snd (fst d) + Z.abs (snd d))).
  Definition poses (c : cell3) : Z := wall (fst c).
  Lemma wall_range c : 0 <= wall c <= 100.
  Proof. unfold wall. destruct (cell_eq_dec _ _); [lia|]. destruct (cell_eq_dec _ _); lia. Qed.
  Example settings : settings_ok 6 6 4 1 wall 1 1 1 steps dist 50 poses.
  Proof.
    unfold settings_ok. repeat (split; [first [lia|lra|intros; unfold steps; lia|intros; apply wall_range|intros; unfold poses; cbn [fst]; lia|
      intros; unfold poses; apply wall_range]|]).
    intros d _. eexists. reflexivity.
  Qed.
  (** Around the wall. *)
  Definition around : list cell := [(1, 1); (1, 2); (2, 2); (3, 2); (3, 1)].
  Lemma hop_dec a b : a <> b -> on_map 6 6 a -> on_map 6 6 b ->
    (fst b - fst a) * (fst b - fst a) + (snd b - snd a) * (snd b - snd a) <= 1 * 1 ->
    forallb (fun m => wall (fst a + fst m, snd a + snd m) <=? 99) (passed steps (fst b - fst a) (snd b - snd a)) = true ->
    hop 6 6 1 wall steps a b.
  Proof.
    intros N Ma Mb L F. split; [exact N|]. split; [exact Ma|]. split; [exact Mb|]. split; [exact L|].
    intros m Hm. rewrite forallb_forall in F. specialize (F m Hm). lia.
  Qed.
  Example a_way : way 6 6 1 wall steps (1, 1) (3, 1) around.
  Proof.
    split; [reflexivity|]. split; [reflexivity|].
    unfold around. cbn [linked]. repeat split; cbn [fst snd]; try lia; try congruence;
      intros m Hm; vm_compute in Hm; destruct Hm as [<-|[]]; vm_compute; discriminate.
  Qed.
  Lemma taken_free p t q : wall p <> 100 -> taken_for 6 6 4 1 wall dist 50 poses 1 1 (p, t) q -> q = (p, 0).
  Proof. intros N [[[_ ->]|[N' _]] _]; [reflexivity|]. cbn [fst] in N'. contradiction. Qed.
  Lemma free_taken p t : wall p <> 100 -> 1 <= fst p < 5 -> 1 <= snd p < 5 -> taken_for 6 6 4 1 wall dist 50 poses 1 1 (p, t) (p, 0).
  Proof. intros N Hx Hy. split; [left; split; [exact N|reflexivity]|]. cbn [fst]. lia. Qed.

  Notation ask := (make_plan 6 6 4 1 wall 1 1 1 steps 1 dist 50 poses 1).
  (** The service finds a way around the wall, and by C74_plan_is_a_cheapest_way a cheapest one. *)
  Example found : exists fuel path, ask false fuel heapR 1%nat 0%nat true true ((1, 1), 0) ((3, 1), 2) 1 = Ok (Some (MPlan path)) /\ last path [] = [3; 1; 0].
  Proof.
    destruct (C74_the_answer_is_right 6 6 4 1 wall 1 1 1 steps 1 dist 50 poses 1 1 settings ltac:(lia) ((1, 1), 0) ((3, 1), 2)) as (fuel & P).
    { assert (sqrt (IZR (6 * 6 + 6 * 6)) < 100)%R; [|lra]. replace 100%R with (sqrt (100 * 100)) by (apply sqrt_square; lra). apply sqrt_lt_1_alt. cbn. lra. }
    destruct (P false fuel heapR 1%nat) as (ans & E & Q); [lia|exact heapR_fair|lia|reflexivity|].
    assert (N1 : wall (1, 1) <> 100) by (vm_compute; discriminate). assert (N2 : wall (3, 1) <> 100) by (vm_compute; discriminate).
    destruct ans; try contradiction Q.
    - exfalso. apply (Q ((1, 1), 0)). apply free_taken; cbn [fst snd]; [exact N1|lia|lia].
    - exfalso. apply (Q ((1, 1), 0)). apply free_taken; cbn [fst snd]; [exact N1|lia|lia].
    - exfalso. apply (Q ((3, 1), 0)). apply free_taken; cbn [fst snd]; [exact N2|lia|lia].
    - exfalso. apply (Q ((3, 1), 0)). apply free_taken; cbn [fst snd]; [exact N2|lia|lia].
    - exfalso. destruct Q as (s & e & Ts & Te & Q). apply (taken_free _ _ _ N1) in Ts. apply (taken_free _ _ _ N2) in Te. subst s e.
      destruct Q as [Q|[Q|Q]]; [discriminate Q|apply Q; reflexivity|apply (Q around); exact a_way].
    - exists fuel, path. split; [exact E|]. destruct Q as (s & e & t & cs & Ts & Te & _ & -> & Hd & Hl & _).
      apply (taken_free _ _ _ N1) in Ts. apply (taken_free _ _ _ N2) in Te.
      assert (s = (1, 1)) as -> by congruence. assert (e = (3, 1)) as -> by congruence. assert (t = 0) as -> by congruence.
      destruct cs as [|a cs]; [discriminate|]. change [3; 1; 0] with ((fun c : cell => [fst c; snd c; 0]) (3, 1)). rewrite <- Hl.
      assert (G : forall k (x d : cell), last (map (fun c => [fst c; snd c; 0]) (x :: k)) [] = [fst (last (x :: k) d); snd (last (x :: k) d); 0])
        by (induction k as [|b k IH]; intros x d; [reflexivity|exact (IH b d)]). apply G.
  Qed.
End MakePlanExample.

(** Finding: the orientation asked for is ignored; the plan ends with orientation 0. *)
Theorem C74_plan_ends_with_the_orientation_asked_for_refuted :
  exists W H A range rough coef res weight steps istep euclid racc cm tol_angle fuel O path s0 e0,
    settings_ok W H A range rough coef res weight steps euclid racc cm /\ rough (fst e0) = 0 /\ 0 <= snd e0 < A /\
    make_plan W H A range rough coef res weight steps istep euclid racc cm tol_angle false fuel O 1 0 true true s0 e0 1 = Ok (Some (MPlan path)) /\
    nth 2 (last path []) 0 <> snd e0.
Proof.
  destruct MakePlanExample.found as (fuel & path & E & L).
  exists 6, 6, 4, 1, MakePlanExample.wall, 1%R, 1%R, 1%R, MakePlanExample.steps, 1, MakePlanExample.dist, 50, MakePlanExample.poses, 1, fuel, heapR, path,
    ((1, 1), 0), ((3, 1), 2).
  split; [exact MakePlanExample.settings|]. split; [reflexivity|]. split; [cbn; lia|]. split; [exact E|]. rewrite L. discriminate.
Qed.

(** Finding: a request whose start and goal lie in the same free cell is answered with failure. *)
Theorem C74_start_at_the_goal_gets_a_plan_refuted :
  exists W H A range rough coef res weight steps istep euclid racc cm tol_angle,
    settings_ok W H A range rough coef res weight steps euclid racc cm /\
    exists p, rough p = 0 /\ on_map W H p /\ forall find_best fuel O ntask t t',
      make_plan W H A range rough coef res weight steps istep euclid racc cm tol_angle find_best fuel O ntask 0 true true (p, t) (p, t') 1 = Ok (Some MUnreachable).
Proof.
  exists 6, 6, 4, 1, MakePlanExample.wall, 1%R, 1%R, 1%R, MakePlanExample.steps, 1, MakePlanExample.dist, 50, MakePlanExample.poses, 1.
  split; [exact MakePlanExample.settings|]. exists (3, 3). split; [reflexivity|]. split; [split; cbn; lia|]. intros. reflexivity.
Qed.

(** Finding: when the goal cell is occupied, relocation may pick a pose with another orientation; the search never turns, so the answer is
    "unreachable" although there is a way to a free cell within the tolerance. *)
Module TurnedExample.
  Definition rough (c : cell) : Z := if cell_eq_dec c (3, 1) then 100 else 0.
  Definition poses (c : cell3) : Z := if snd c =? 1 then rough (fst c) else 100.
  Lemma rough_range c : 0 <= rough c <= 100.
  Proof. unfold rough. destruct (cell_eq_dec _ _); lia. Qed.
  Example settings : settings_ok 6 6 4 1 rough 1 1 1 MakePlanExample.steps MakePlanExample.dist 50 poses.
  Proof.
    unfold settings_ok. repeat (split; [first [lia|lra|intros; unfold MakePlanExample.steps; lia|intros; apply rough_range|
      intros c t Ht; unfold poses; cbn [fst snd]; pose proof (rough_range c); destruct (t =? 1); lia|
      intros c; unfold poses; pose proof (rough_range (fst c)); destruct (snd c =? 1); lia]|]).
    intros d _. eexists. reflexivity.
  Qed.
  Example a_way : way 6 6 1 rough MakePlanExample.steps (1, 1) (3, 2) [(1, 1); (1, 2); (2, 2); (3, 2)].
  Proof.
    split; [reflexivity|]. split; [reflexivity|].
    cbn [linked]. repeat split; cbn [fst snd]; try lia; try congruence;
      intros m Hm; vm_compute in Hm; destruct Hm as [<-|[]]; vm_compute; discriminate.
  Qed.
End TurnedExample.
Theorem C74_reachable_free_cell_within_tolerance_gets_a_plan_refuted :
  exists W H A range rough coef res weight steps istep euclid racc cm tol_angle s0 e0 near l,
    settings_ok W H A range rough coef res weight steps euclid racc cm /\
    way W H range rough steps (fst s0) near l /\ rough near = 0 /\ (exists t, cm (near, t) = 0) /\
    (fst near - fst (fst e0)) * (fst near - fst (fst e0)) + (snd near - snd (fst e0)) * (snd near - snd (fst e0)) <= 1 * 1 /\
    forall find_best fuel O ntask path, fair_sched O ->
      make_plan W H A range rough coef res weight steps istep euclid racc cm tol_angle find_best fuel O ntask 0 true true s0 e0 1 <> Ok (Some (MPlan path)).
Proof.
  exists 6, 6, 4, 1, TurnedExample.rough, 1%R, 1%R, 1%R, MakePlanExample.steps, 1, MakePlanExample.dist, 50, TurnedExample.poses, 1.
  exists ((1, 1), 0), ((3, 1), 0), (3, 2), [(1, 1); (1, 2); (2, 2); (3, 2)].
  split; [exact TurnedExample.settings|]. split; [exact TurnedExample.a_way|]. split; [reflexivity|]. split; [exists 1; reflexivity|].
  split; [cbn; lia|]. intros find_best fuel O ntask path HO E.
  destruct (plan_way 6 6 4 1 TurnedExample.rough 1 1 1 MakePlanExample.steps 1 MakePlanExample.dist 50 TurnedExample.poses 1 1 TurnedExample.settings
    ltac:(lia) find_best fuel O ntask _ _ path HO E) as (s & e & t & cs & [[[N Ts]|[N _]] _] & [[[N' _]|[_ Te]] _] & Ht & _).
  - apply N'. reflexivity.
  - assert (t = 0) as -> by (cbn [fst] in Ts; congruence).
    destruct (C14_rough_relocation_is_free_and_nearest KR MakePlanExample.dist 6 6 4 1 50 TurnedExample.poses TurnedExample.rough (3, 1) 0 1 1
      KR_order ltac:(lia) ltac:(lia)) as (st & q & E' & P); [reflexivity| |lia|].
    + destruct TurnedExample.settings as (_ & _ & _ & _ & _ & _ & _ & _ & _ & _ & X & _). exact X.
    + assert (EE : Ok (PRelocated, (e, 0)) = Ok (st, q)) by (etransitivity; [symmetry; exact Te|exact E']).
      assert (st = PRelocated /\ q = (e, 0)) as [-> ->] by (split; congruence).
      destruct P as (_ & _ & C & _). vm_compute in C. discriminate C.
  - vm_compute in N. discriminate N.
  - vm_compute in N. discriminate N.
Qed.

Print Assumptions C74_plan_is_a_cheapest_way.
Print Assumptions C74_the_answer_is_right.
Print Assumptions C74_plan_poses_lie_in_free_cells.
Print Assumptions C74_plan_ends_with_the_orientation_asked_for_refuted.
Print Assumptions C74_start_at_the_goal_gets_a_plan_refuted.
Print Assumptions C74_reachable_free_cell_within_tolerance_gets_a_plan_refuted.
