(** C14: relocated poses are free and nearest. *)
From Coq Require Import ZifyBool.
From Flocq Require Import IEEE754.BinarySingleNaN.
From Verif Require Import Common CyclicVec CyclicVecSpec CyclicVecProofs CostAlg CostZ CostF32 DistMap Overlay OverlayProofs SearchAvail.
Local Open Scope Z_scope.

(** *** Specification *)
(** [q] is an acceptable pose for [s], displaced by [d = ((dx, dy), dt)]: not further than the tolerances and not nearer than the
    minimum distance, inside the map with its margin, with the orientation taken modulo a full turn, and with a cost below the limit. *)
Definition acceptable_pose (W H A range : Z) (cm : cell3 -> Z) (s : cell3) (lin ang min limit : Z) (d q : cell3) : Prop :=
  let '((dx, dy), dt) := d in let '((x, y), t) := q in
  d <> ((0, 0), 0) /\ dx * dx + dy * dy <= lin * lin /\ min * min <= dx * dx + dy * dy /\ Z.abs dt <= ang /\
  x = fst (fst s) + dx /\ y = snd (fst s) + dy /\ 0 <= t < A /\ (exists k, t = snd s + dt + k * A) /\
  0 <= x < W /\ 0 <= y < H /\ range <= x < W - range /\ range <= y < H - range /\ cm q < limit.
(** [q] is acceptable and no acceptable pose is strictly nearer. *)
Definition nearest_pose {F} (K : cost_ops F) (dist : cell3 -> F) W H A range cm s lin ang min limit (q : cell3) : Prop :=
  exists d, acceptable_pose W H A range cm s lin ang min limit d q /\
    forall d' q', acceptable_pose W H A range cm s lin ang min limit d' q' -> fltb K (dist d') (dist d) = false.
Definition no_pose W H A range cm s lin ang min limit : Prop :=
  forall d q, ~ acceptable_pose W H A range cm s lin ang min limit d q.

(** What is used of the cost arithmetic. *)
Record order_laws {F} (K : cost_ops F) : Prop := OrderLaws {
  ol_irrefl : forall a, fltb K a a = false;
  ol_trans : forall a b c, fltb K a b = true -> fltb K b c = true -> fltb K a c = true;
  ol_max : feqb K (fmax K) (fmax K) = true;
  ol_below_max : forall a, fltb K a (fmax K) = true -> feqb K a (fmax K) = false }.

Lemma KZ_order : order_laws KZ.
Proof.
  constructor; cbn [fltb feqb fmax KZ]; intros.
  - destruct a; simpl; lia.
  - destruct a, b, c; simpl in *; try discriminate; try reflexivity; lia.
  - reflexivity.
  - destruct a; simpl in *; try discriminate; reflexivity.
Qed.
Lemma KF32_order : order_laws KF32.
Proof.
  pose proof KF32_laws as L. constructor; intros.
  - apply (lw_lt_irrefl _ L).
  - eapply (lw_le_lt_trans _ L); [apply (lw_lt_le _ L); eassumption|assumption].
  - vm_compute. reflexivity.
  - cbn [fltb feqb KF32] in *. unfold Bltb, Beqb, SpecFloat.SFltb, SpecFloat.SFeqb in *. destruct (SpecFloat.SFcompare _ _) as [[]|]; congruence.
Qed.

Section P.
  Context {F : Type} (K : cost_ops F).
  Hypothesis L : order_laws K.
  Variable euclid : cell3 -> F.
  Variables W H A range racc : Z.
  Variable cm : cell3 -> Z.
  Variable s : cell3.
  Hypothesis HA : 0 < A.
  Variables lin ang : Z.
  Hypothesis Hlin : 0 <= lin.
  Hypothesis Finite : forall d, d <> ((0, 0), 0) -> fltb K (euclid d) (fmax K) = true.
  Notation acc := (acceptable_pose W H A range cm s lin ang).

  Lemma in_offsets dx dy dt : In ((dx, dy), dt) (offsets lin ang) <-> Z.abs dx <= lin /\ Z.abs dy <= lin /\ Z.abs dt <= ang.
  Proof.
    unfold offsets. rewrite in_map_iff. split.
    - intros ([t [x y]] & E & I). injection E as <- <- <-. apply in_prod_iff in I as [It I]. apply in_prod_iff in I as [Ix Iy].
      apply in_range_incl in It, Ix, Iy. lia.
    - intros (Hx & Hy & Ht). exists (dt, (dx, dy)). split; [reflexivity|]. apply in_prod_iff. split; [apply in_range_incl; lia|].
      apply in_prod_iff. split; apply in_range_incl; lia.
  Qed.
  Lemma acc_in_offsets mn limit d q : acc mn limit d q -> In d (offsets lin ang).
  Proof.
    destruct d as [[dx dy] dt], q as [[x y] t]. cbn [acceptable_pose]. intros (_ & H1 & _ & H2 & _). apply in_offsets. nia.
  Qed.

  (** One offset: either it is acceptable and its pose is considered, or the best so far stays. *)
  Lemma try_offset_spec mn limit best d : Z.abs (snd d) <= ang ->
    (exists q, acc mn limit d q /\
       try_offset K euclid W H A range cm lin mn limit s best d = Ok (if fltb K (euclid d) (fst best) then (euclid d, q) else best)) \/
    ((forall q, ~ acc mn limit d q) /\ try_offset K euclid W H A range cm lin mn limit s best d = Ok best).
  Proof.
    destruct d as [[dx dy] dt]. cbn [snd]. intros Hd. unfold try_offset.
    destruct ((dx =? 0) && (dy =? 0) && (dt =? 0)) eqn:E0.
    { right. split; [|reflexivity]. intros [[x y] t] (N & _). apply N. repeat f_equal; lia. }
    destruct (Z.ltb_spec (lin * lin) (dx * dx + dy * dy)) as [E1|E1].
    { right. split; [|reflexivity]. intros [[x y] t] (_ & N & _). lia. }
    destruct (Z.ltb_spec (dx * dx + dy * dy) (mn * mn)) as [E2|E2].
    { right. split; [|reflexivity]. intros [[x y] t] (_ & _ & N & _). lia. }
    destruct ((0 <=? fst (fst s) + dx) && (fst (fst s) + dx <? W) && (0 <=? snd (fst s) + dy) && (snd (fst s) + dy <? H)) eqn:E3; cbn [negb].
    2:{ right. split; [|reflexivity]. intros [[x y] t] (_ & _ & _ & _ & -> & -> & _ & _ & N1 & N2 & _). lia. }
    destruct (cycleUnsignedElement_spec (snd s + dt) A HA) as (t & -> & [k Sd] & Ur). cbn [bind]. unfold unsigned_range in Ur.
    assert (Tq : forall t', 0 <= t' < A -> (exists k', t' = snd s + dt + k' * A) -> t' = t).
    { intros t' Ht' [k' E']. assert (k' = k \/ k' <= k - 1 \/ k + 1 <= k') as [->|[X|X]] by lia; nia. }
    destruct (validate3 W H A range (fst (fst s) + dx, snd (fst s) + dy, t)) eqn:E4; cbn [negb]; unfold validate3 in E4; cbn [fst snd] in E4.
    2:{ right. split; [|reflexivity]. intros [[x y] t'] (_ & _ & _ & _ & -> & -> & N0 & N1 & _ & _ & N2 & N3 & _). lia. }
    destruct (Z.leb_spec limit (cm (fst (fst s) + dx, snd (fst s) + dy, t))) as [E5|E5].
    { right. split; [|reflexivity]. intros [[x y] t'] (_ & _ & _ & _ & -> & -> & N0 & N1 & _ & _ & _ & _ & N). rewrite (Tq _ N0 N1) in N. exact (Zlt_not_le _ _ N E5). }
    left. exists (fst (fst s) + dx, snd (fst s) + dy, t). split.
    - cbn [acceptable_pose fst snd]. split; [intros X; injection X; lia|]. split; [exact E1|]. split; [exact E2|]. split; [exact Hd|].
      split; [reflexivity|]. split; [reflexivity|]. split; [lia|]. split; [exists k; lia|]. split; [lia|]. split; [lia|]. split; [lia|]. split; [lia|exact E5].
    - match goal with |- (if ?b then _ else _) = _ => change (fltb K (euclid (dx, dy, dt)) (fst best)) with b; destruct b; reflexivity end.
  Qed.

  Lemma search_once_spec mn limit :
    exists r, search_once K euclid W H A range cm lin ang limit mn s = Ok r /\
      match r with
      | Some q => nearest_pose K euclid W H A range cm s lin ang mn limit q
      | None => no_pose W H A range cm s lin ang mn limit
      end.
  Proof.
    unfold search_once.
    destruct (foldM_prefix (try_offset K euclid W H A range cm lin mn limit s)
      (fun pre b => (b = (fmax K, ((0, 0), 0)) /\ (forall d q, In d pre -> ~ acc mn limit d q)) \/
        (exists d q, b = (euclid d, q) /\ In d pre /\ acc mn limit d q /\ forall d' q', In d' pre -> acc mn limit d' q' -> fltb K (euclid d') (euclid d) = false))
      (offsets lin ang) (fmax K, ((0, 0), 0))) as (b & E & P).
    - left. split; [reflexivity|]. intros d q [].
    - intros pre d post b E P.
      assert (Hd : In d (offsets lin ang)) by (rewrite E; apply in_or_app; right; left; reflexivity).
      assert (Ha : Z.abs (snd d) <= ang) by (destruct d as [[dx dy] dt]; apply in_offsets in Hd; simpl; lia).
      destruct (try_offset_spec mn limit b d Ha) as [(q & Hq & ->)|[Nq ->]].
      + eexists. split; [reflexivity|]. right. destruct P as [[-> Np]|(d0 & q0 & -> & I0 & H0 & M0)]; cbn [fst].
        * rewrite Finite by (destruct d as [[dx dy] dt], q as [[x y] t]; apply Hq). exists d, q. split; [reflexivity|].
          split; [apply in_or_app; right; left; reflexivity|]. split; [exact Hq|]. intros d' q' I' H'. apply in_app_or in I' as [I'|[->|[]]].
          -- exfalso. exact (Np d' q' I' H').
          -- apply (ol_irrefl K L).
        * destruct (fltb K (euclid d) (euclid d0)) eqn:C.
          -- exists d, q. split; [reflexivity|]. split; [apply in_or_app; right; left; reflexivity|]. split; [exact Hq|].
             intros d' q' I' H'. apply in_app_or in I' as [I'|[->|[]]]; [|apply (ol_irrefl K L)].
             destruct (fltb K (euclid d') (euclid d)) eqn:C'; [|reflexivity].
             rewrite <- (M0 d' q' I' H'). symmetry. apply (ol_trans K L _ _ _ C' C).
          -- exists d0, q0. split; [reflexivity|]. split; [apply in_or_app; auto|]. split; [exact H0|].
             intros d' q' I' H'. apply in_app_or in I' as [I'|[<-|[]]]; [apply (M0 d' q' I' H')|exact C].
      + eexists. split; [reflexivity|]. destruct P as [[-> Np]|(d0 & q0 & -> & I0 & H0 & M0)].
        * left. split; [reflexivity|]. intros d' q' I'. apply in_app_or in I' as [I'|[<-|[]]]; [apply Np; exact I'|apply Nq].
        * right. exists d0, q0. split; [reflexivity|]. split; [apply in_or_app; auto|]. split; [exact H0|].
          intros d' q' I' H'. apply in_app_or in I' as [I'|[<-|[]]]; [apply (M0 d' q' I' H')|exfalso; exact (Nq q' H')].
    - rewrite E. cbn [bind]. destruct P as [[-> Np]|(d0 & q0 & -> & I0 & H0 & M0)]; cbn [fst snd].
      + rewrite (ol_max K L). exists None. split; [reflexivity|]. intros d q Hq. exact (Np d q (acc_in_offsets mn limit d q Hq) Hq).
      + assert (Nd : d0 <> ((0, 0), 0)) by (destruct d0 as [[dx dy] dt], q0 as [[x y] t]; apply H0).
        rewrite (ol_below_max K L) by (apply Finite; exact Nd).
        destruct q0 as [p t]. cbn [fst snd].
        assert (Ht : 0 <= t < A) by (destruct d0 as [[dx dy] dt], p as [x y]; apply H0).
        replace (cycleUnsignedElement t A) with (Ok t).
        2:{ symmetry. apply cycleUnsignedElement_iff; [exact HA|]. split; [apply same_direction_refl|exact Ht]. }
        cbn [bind]. exists (Some (p, t)). split; [reflexivity|]. exists d0. split; [exact H0|].
        intros d' q' H'. exact (M0 d' q' (acc_in_offsets mn limit d' q' H') H').
  Qed.
End P.

(** C14: the search never leaves the grid.  It returns a nearest acceptable pose with the given cost limit and minimum distance if
    there is one; otherwise a nearest pose below cost 100 without the minimum distance; otherwise it fails and leaves the pose alone. *)
Theorem C14_search_finds_a_nearest_pose {F} (K : cost_ops F) euclid W H A range racc cm s lin ang limit0 mn :
  order_laws K -> 0 < A -> 0 <= lin -> (forall d, d <> ((0, 0), 0) -> fltb K (euclid d) (fmax K) = true) ->
  let limit := if limit0 =? -1 then racc else limit0 in
  exists found q, searchAvailablePos K euclid W H A range racc cm s lin ang limit0 mn = Ok (found, q) /\
    if found then
      nearest_pose K euclid W H A range cm s lin ang mn limit q \/
      (limit <> 100 /\ no_pose W H A range cm s lin ang mn limit /\ nearest_pose K euclid W H A range cm s lin ang 0 100 q)
    else
      q = s /\ no_pose W H A range cm s lin ang mn limit /\ (limit <> 100 -> no_pose W H A range cm s lin ang 0 100).
Proof.
  intros L HA Hl Fin limit. unfold searchAvailablePos. fold limit.
  destruct (search_once_spec K L euclid W H A range cm s HA lin ang Hl Fin mn limit) as (r & -> & P). cbn [bind].
  destruct r as [q|]; [exists true, q; auto|].
  destruct (Z.eqb_spec limit 100) as [E|E]; [exists false, s; repeat split; auto; congruence|].
  destruct (search_once_spec K L euclid W H A range cm s HA lin ang Hl Fin 0 100) as (r & -> & P'). cbn [bind].
  destruct r as [q|]; [exists true, q; split; [reflexivity|]; right; auto|]. exists false, s. auto.
Qed.

(** C14: a start or goal is relocated only if it is on the map and occupied; then it becomes a nearest acceptable pose, whose cost is
    below the limit (or below 100 if none is), or stays as it is and failure is reported.  A pose that is reported fine is free. *)
Theorem C14_relocation_is_free_and_nearest {F} (K : cost_ops F) euclid W H A range racc cm rough_map s lin ang :
  order_laws K -> 0 < A -> 0 <= lin -> (forall d, d <> ((0, 0), 0) -> fltb K (euclid d) (fmax K) = true) ->
  (forall c, cm c <= 100) -> racc <= 100 ->
  exists st q, relocate K euclid W H A range racc cm rough_map false s lin ang = Ok (st, q) /\
    let inside := range <= fst (fst s) < W - range /\ range <= snd (fst s) < H - range /\ 0 <= snd s < A in
    match st with
    | POutOfMap => q = s /\ ~ inside
    | POk => q = s /\ inside /\ cm s < 100
    | PRelocated => inside /\ cm s = 100 /\ cm q < 100 /\
        (nearest_pose K euclid W H A range cm s lin ang 0 racc q \/
         no_pose W H A range cm s lin ang 0 racc /\ nearest_pose K euclid W H A range cm s lin ang 0 100 q) 
    | PInRock => q = s /\ inside /\ cm s = 100 /\ no_pose W H A range cm s lin ang 0 racc /\ (racc <> 100 -> no_pose W H A range cm s lin ang 0 100)
    end.
Proof.
  intros L HA Hl Fin Hc R.
  unfold relocate. destruct (validate3 W H A range s) eqn:V; cbn [negb]; unfold validate3 in V.
  2:{ eexists _, _. split; [reflexivity|]. split; [reflexivity|lia]. }
  destruct (Z.eqb_spec (cm s) 100) as [E|E].
  2:{ eexists _, _. split; [reflexivity|]. specialize (Hc s). split; [reflexivity|]. lia. }
  destruct (C14_search_finds_a_nearest_pose K euclid W H A range racc cm s lin ang (-1) 0 L HA Hl Fin) as (f & q & -> & P).
  cbn [Z.eqb] in P. cbn [bind fst snd]. eexists _, _. split; [reflexivity|]. destruct f.
  - split; [lia|]. split; [exact E|].
    assert (C : forall limit, nearest_pose K euclid W H A range cm s lin ang 0 limit q -> cm q < limit).
    { intros limit (d & Hd & _). destruct d as [[dx dy] dt], q as [[x y] t]. apply Hd. }
    destruct P as [P|(N & P1 & P2)]; [split; [specialize (C _ P); lia|auto]|split; [specialize (C _ P2); lia|auto]].
  - destruct P as (-> & P1 & P2). split; [reflexivity|]. split; [lia|]. auto.
Qed.

(** C14: with the costs by cell (make_plan service) only the cell counts: the orientation is set to 0, the cell must be on the map, is kept if its cost is not 100, and
    is replaced by a nearest acceptable pose otherwise. *)
Theorem C14_rough_relocation_is_free_and_nearest {F} (K : cost_ops F) euclid W H A range racc cm rough_map p t0 lin ang :
  order_laws K -> 0 < A -> 0 <= lin -> (forall d, d <> ((0, 0), 0) -> fltb K (euclid d) (fmax K) = true) ->
  (forall c, cm c <= 100) -> racc <= 100 ->
  exists st q, relocate K euclid W H A range racc cm rough_map true (p, t0) lin ang = Ok (st, q) /\
    let s := (p, 0) in let inside := range <= fst p < W - range /\ range <= snd p < H - range in
    match st with
    | POutOfMap => q = s /\ ~ inside
    | POk => q = s /\ inside /\ rough_map p <> 100
    | PRelocated => inside /\ rough_map p = 100 /\ cm q < 100 /\
        (nearest_pose K euclid W H A range cm s lin ang 0 racc q \/
         no_pose W H A range cm s lin ang 0 racc /\ nearest_pose K euclid W H A range cm s lin ang 0 100 q)
    | PInRock => q = s /\ inside /\ rough_map p = 100 /\ no_pose W H A range cm s lin ang 0 racc /\ (racc <> 100 -> no_pose W H A range cm s lin ang 0 100)
    end.
Proof.
  intros L HA Hl Fin Hc R.
  unfold relocate. cbn [fst]. set (s := (p, 0)). destruct (validate2 W H range s) eqn:V; cbn [negb]; unfold validate2 in V; cbn [fst snd s] in V.
  2:{ eexists _, _. split; [reflexivity|]. split; [reflexivity|lia]. }
  destruct (Z.eqb_spec (rough_map p) 100) as [E|E]; change (fst s) with p.
  2:{ destruct (Z.eqb_spec (rough_map p) 100); [contradiction|]. eexists _, _. split; [reflexivity|]. split; [reflexivity|]. lia. }
  destruct (Z.eqb_spec (rough_map p) 100) as [_|]; [|contradiction].
  destruct (C14_search_finds_a_nearest_pose K euclid W H A range racc cm s lin ang (-1) 0 L HA Hl Fin) as (f & q & -> & P).
  cbn [Z.eqb] in P. cbn [bind fst snd]. eexists _, _. split; [reflexivity|]. destruct f.
  - split; [lia|]. split; [exact E|].
    assert (C : forall limit, nearest_pose K euclid W H A range cm s lin ang 0 limit q -> cm q < limit).
    { intros limit (d & Hd & _). destruct d as [[dx dy] dt], q as [[x y] t]. apply Hd. }
    destruct P as [P|(N & P1 & P2)]; [split; [specialize (C _ P); lia|auto]|split; [specialize (C _ P2); lia|auto]].
  - destruct P as (-> & P1 & P2). split; [reflexivity|]. split; [lia|]. auto.
Qed.

(** The code's cost arithmetic is an instance. *)
Corollary C14_binary32_relocation_is_free_and_nearest euclid W H A range racc cm rough_map s lin ang :
  0 < A -> 0 <= lin -> (forall d, d <> ((0, 0), 0) -> fltb KF32 (euclid d) (fmax KF32) = true) ->
  (forall c, cm c <= 100) -> racc <= 100 ->
  exists st q, relocate KF32 euclid W H A range racc cm rough_map false s lin ang = Ok (st, q) /\
    (st = PRelocated -> cm q < 100 /\ (nearest_pose KF32 euclid W H A range cm s lin ang 0 racc q \/
         no_pose W H A range cm s lin ang 0 racc /\ nearest_pose KF32 euclid W H A range cm s lin ang 0 100 q)) /\
    (st <> PRelocated -> q = s).
Proof.
  intros HA Hl Fin Hc R. destruct (C14_relocation_is_free_and_nearest KF32 euclid W H A range racc cm rough_map s lin ang KF32_order HA Hl Fin Hc R) as (st & q & E & P).
  exists st, q. split; [exact E|]. cbv zeta in P. split; intros X; destruct st; try congruence; try apply P. 
Qed.

(** *** Refutations and examples *)
Module SearchExample.
  (* squared length plus the angle *)
  Definition dist (d : cell3) : option Z := Some (10 * (fst (fst d) * fst (fst d) + snd (fst d) * snd (fst d)) + Z.abs (snd d)).
  Definition wall (c : cell3) : Z := if (2 <=? fst (fst c)) && (fst (fst c) <=? 4) then 100 else if fst (fst c) =? 1 then 60 else 0.
  Example moved : relocate KZ dist 10 5 4 0 50 wall (fun _ => 0) false ((3, 2), 1) 3 1 = Ok (PRelocated, ((5, 2), 1)).
  Proof. vm_compute. reflexivity. Qed.
  Example second_choice : relocate KZ dist 10 5 4 0 50 wall (fun _ => 0) false ((2, 2), 1) 1 1 = Ok (PRelocated, ((1, 2), 1)).
  Proof. vm_compute. reflexivity. Qed.
  Example in_rock : relocate KZ dist 10 5 4 0 50 wall (fun _ => 0) false ((3, 2), 1) 1 1 = Ok (PInRock, ((3, 2), 1)).
  Proof. vm_compute. reflexivity. Qed.
  Example rough_kept : relocate KZ dist 10 5 4 0 50 wall (fun c => if fst c =? 3 then 100 else 0) true ((4, 2), 3) 3 1 = Ok (POk, ((4, 2), 0)).
  Proof. vm_compute. reflexivity. Qed.
  Example rough_moved : relocate KZ dist 10 5 4 0 50 wall (fun c => if fst c =? 3 then 100 else 0) true ((3, 2), 3) 3 1 = Ok (PRelocated, ((5, 2), 0)).
  Proof. vm_compute. reflexivity. Qed.
  Example off_map : relocate KZ dist 10 5 4 1 50 wall (fun _ => 0) false ((9, 2), 1) 1 1 = Ok (POutOfMap, ((9, 2), 1)).
  Proof. vm_compute. reflexivity. Qed.
  Example hypotheses_hold : forall d, d <> ((0, 0), 0) -> fltb KZ (dist d) (fmax KZ) = true.
  Proof. intros d _. reflexivity. Qed.
End SearchExample.

(** The minimum distance is dropped in the second attempt: the pose found can be nearer than asked for. *)
Theorem C14_minimum_distance_is_kept_refuted :
  exists cm s q, searchAvailablePos KZ SearchExample.dist 10 5 4 0 50 cm s 2 0 50 2 = Ok (true, q) /\
    (fst (fst q) - fst (fst s)) * (fst (fst q) - fst (fst s)) + (snd (fst q) - snd (fst s)) * (snd (fst q) - snd (fst s)) < 2 * 2.
Proof.
  exists (fun _ => 60), ((5, 2), 0). eexists. split; [vm_compute; reflexivity|]. vm_compute. reflexivity.
Qed.
(** With the costs by cell (make_plan service) the search still moves over orientations: the relocated pose can leave orientation 0, which
    is the only one the service's search visits. *)
Theorem C14_rough_relocation_keeps_orientation_refuted :
  exists cm rough s q, relocate KZ SearchExample.dist 10 5 4 0 50 cm rough true s 1 1 = Ok (PRelocated, q) /\
    (forall c t, 0 <= t < 4 -> rough c <= cm (c, t)) /\ snd q <> 0.
Proof.
  exists (fun c => if (snd c =? 1) && negb (fst (fst c) =? 5) then 0 else 100), (fun c => if fst c =? 5 then 100 else 0), ((5, 2), 0). eexists.
  split; [vm_compute; reflexivity|]. split; [|vm_compute; discriminate].
  intros [x y] t Ht. cbn [fst snd]. destruct (x =? 5), (t =? 1); simpl; lia.
Qed.

Print Assumptions C14_search_finds_a_nearest_pose.
Print Assumptions C14_relocation_is_free_and_nearest.
Print Assumptions C14_rough_relocation_is_free_and_nearest.
Print Assumptions C14_binary32_relocation_is_free_and_nearest.
Print Assumptions C14_minimum_distance_is_kept_refuted.
Print Assumptions C14_rough_relocation_keeps_orientation_refuted.
