(** C02-C05: the block-organised grid map. *)
From Verif Require Import Common GridMap GridMapSpec GridMapRun GridMapProofs.
Local Open Scope Z_scope.

(** C02: after [reset] to any admissible size, every cell's slot is inside the
    buffer and different cells have different slots. *)
Theorem C02_no_alias : forall (V : Type) nc bit size fresh (g : gmap V) p q, 0 <= bit ->
  good_size (2 ^ bit) nc size -> valid size p -> valid size q ->
  let g' := reset nc bit size fresh g in
  0 <= slot nc bit g' p < g_cap g' /\ (slot nc bit g' p = slot nc bit g' q -> p = q).
Proof.
  intros V nc bit size fresh g p q Hb HG HP HQ g'.
  pose proof (reset_wf nc bit Hb size fresh g HG) as Hw.
  pose proof (reset_size nc bit size fresh g) as Hs. fold g' in Hw, Hs.
  rewrite <- Hs in HP, HQ.
  rewrite !(slot_pslot nc bit Hb) by assumption.
  pose proof (pslot_range nc bit Hb _ _ (proj1 Hw) HP).
  destruct Hw as (HG' & _ & _ & E & Hc). split; [lia|].
  apply pslot_inj; assumption.
Qed.

(** C03: every legal history of operations on any number of maps executes
    without undefined behaviour, and afterwards each cell reads as the abstract
    partial function says. *)
Theorem C03_history : forall (V : Type) (nonneg : V -> bool) nc bit ev vmax junk
    (l : list (op V * (Z -> V))) aw, 0 <= bit ->
  aruns nonneg (2 ^ bit) nc (fun _ => None) (map fst l) aw ->
  exists w, crun nonneg nc bit ev vmax (world_init vmax junk) l = Ok w /\
    forall i sz f, aw i = Some (sz, f) ->
      g_size (w i) = sz /\
      forall p v, valid sz p -> f p = Some v -> read nc bit ev vmax (w i) p = Ok v.
Proof.
  intros V nonneg nc bit ev vmax junk l aw Hb HA.
  destruct (run_refines nc bit Hb ev vmax nonneg l (world_init vmax junk) (fun _ => None) aw) as (w & E & HR).
  - apply R_init.
  - exact HA.
  - exists w. split; [exact E|]. intros i sz f Ei. split.
    + apply (HR i sz f Ei).
    + intros p v HV Ef. eapply R_read; eauto.
Qed.

(** C04: on any map reached by a legal history, the partial operations change a
    cell iff it is in the box, also for cells whose value is indeterminate. *)
Theorem C04_box_exact : forall (V : Type) (nonneg : V -> bool) nc bit ev vmax junk
    (l : list (op V * (Z -> V))) aw w, 0 <= bit ->
  aruns nonneg (2 ^ bit) nc (fun _ => None) (map fst l) aw ->
  crun nonneg nc bit ev vmax (world_init vmax junk) l = Ok w ->
  forall i sz f, aw i = Some (sz, f) -> length sz = 3%nat ->
  (* clear_partially *)
  (forall zero mn mx, length mn = 3%nat -> length mx = 3%nat ->
     (forall p, in_boxb mn mx p = true -> valid sz p) ->
     exists g', clear_partially nc bit ev (w i) zero mn mx = Ok g' /\ g_size g' = sz /\
       forall q, valid sz q ->
         read nc bit ev vmax g' q = if in_boxb mn mx q then Ok zero else read nc bit ev vmax (w i) q) /\
  (* copy_partially, same coordinates *)
  (forall j sz' f' mn mx, aw j = Some (sz', f') -> length mn = 3%nat -> length mx = 3%nat ->
     (forall p, in_boxb mn mx p = true -> valid sz p /\ valid sz' p) ->
     exists g', copy_partially nc bit ev vmax (w i) (w j) mn mx = Ok g' /\ g_size g' = sz /\
       forall q, valid sz q ->
         read nc bit ev vmax g' q =
         if in_boxb mn mx q then read nc bit ev vmax (w j) q else read nc bit ev vmax (w i) q) /\
  (* copy_partially with an offset *)
  (forall j sz' f' dst mn mx, aw j = Some (sz', f') ->
     length dst = 3%nat -> length mn = 3%nat -> length mx = 3%nat ->
     (forall p, in_boxb mn mx p = true -> valid sz' p /\ valid sz (plus p (minus dst mn))) ->
     exists g', copy_partially_to nc bit ev vmax (w i) dst (w j) mn mx = Ok g' /\ g_size g' = sz /\
       forall q, valid sz q ->
         read nc bit ev vmax g' q =
         if in_boxb mn mx (minus q (minus dst mn))
         then read nc bit ev vmax (w j) (minus q (minus dst mn)) else read nc bit ev vmax (w i) q).
Proof.
  intros V nonneg nc bit ev vmax junk l aw w Hb HA HC i sz f Ei L3.
  destruct (run_refines nc bit Hb ev vmax nonneg l (world_init vmax junk) (fun _ => None) aw
              (R_init nc bit vmax junk) HA) as (w' & E' & HR).
  rewrite HC in E'. injection E' as <-.
  destruct (HR i sz f Ei) as (Hw & Hs & _). subst sz.
  split; [|split].
  - intros zero mn mx L1 L2 HB.
    destruct (clear_partially_ok nc bit Hb ev (w i) zero mn mx) as (g' & E & Hw' & Hs' & Hc); auto.
    exists g'. split; [exact E|]. split; [exact Hs'|]. intros q Hq.
    rewrite !read_valid by (auto; rewrite Hs'; auto).
    fold (cell nc bit g' q) (cell nc bit (w i) q). rewrite Hc by exact Hq.
    destruct (in_boxb mn mx q); reflexivity.
  - intros j sz' f' mn mx Ej L1 L2 HB. destruct (HR j sz' f' Ej) as (Hwj & Hsj & _). subst sz'.
    destruct (copy_partially_ok nc bit Hb ev vmax (w i) (w j) mn mx) as (g' & E & Hw' & Hs' & Hc); auto.
    exists g'. split; [exact E|]. split; [exact Hs'|]. intros q Hq.
    rewrite (read_valid nc bit Hb ev vmax g' q) by (auto; rewrite Hs'; auto).
    rewrite (read_valid nc bit Hb ev vmax (w i) q) by auto.
    fold (cell nc bit g' q) (cell nc bit (w i) q). rewrite Hc by exact Hq.
    destruct (in_boxb mn mx q) eqn:Ein; [|reflexivity].
    rewrite read_valid; auto. apply HB; auto.
  - intros j sz' f' dst mn mx Ej Ld L1 L2 HB. destruct (HR j sz' f' Ej) as (Hwj & Hsj & _). subst sz'.
    destruct (copy_partially_to_ok nc bit Hb ev vmax (w i) dst (w j) mn mx) as (g' & E & Hw' & Hs' & Hc); auto.
    exists g'. split; [exact E|]. split; [exact Hs'|]. intros q Hq.
    rewrite (read_valid nc bit Hb ev vmax g' q) by (auto; rewrite Hs'; auto).
    rewrite (read_valid nc bit Hb ev vmax (w i) q) by auto.
    fold (cell nc bit g' q) (cell nc bit (w i) q). rewrite Hc by exact Hq.
    destruct (in_boxb mn mx (minus q (minus dst mn))) eqn:Ein; [|reflexivity].
    rewrite read_valid; auto. apply HB; auto.
Qed.

(** C05: [validate] accepts exactly the positions that keep [tol] cells from
    every edge of a non-cyclic dimension and are in range in the others. *)
Theorem C05_validate_exact : forall (V : Type) nc (g : gmap V) pos tol,
  length (g_size g) = length pos ->
  (validate nc g pos tol = true <->
   forall i s p, nth_error (g_size g) i = Some s -> nth_error pos i = Some p ->
     if (i <? nc)%nat then tol <= p < s - tol else 0 <= p < s).
Proof. intros. apply validate_loop_iff. assumption. Qed.

(** ... so every neighbour within the tolerance is a cell of the map. *)
Theorem C05_validate_neighbours : forall (V : Type) nc (g : gmap V) pos q tol,
  length (g_size g) = length pos -> length (g_size g) = length q -> 0 <= tol ->
  validate nc g pos tol = true ->
  (forall i p r, nth_error pos i = Some p -> nth_error q i = Some r ->
     if (i <? nc)%nat then Z.abs (p - r) <= tol else r = p) ->
  valid (g_size g) q.
Proof.
  intros V nc g pos q tol L1 L2 Ht HV HN. apply valid_nth; [exact L2|].
  intros i s r Hs Hr. unfold validate in HV. rewrite (validate_loop_iff _ _ _ _ L1) in HV.
  destruct (nth_error pos i) as [p|] eqn:Hp.
  - specialize (HV i s p Hs Hp). specialize (HN i p r Hp Hr).
    destruct (i <? nc)%nat; [|subst; lia]. lia.
  - apply nth_error_None in Hp. assert (i < length (g_size g))%nat by (apply nth_error_Some; congruence). lia.
Qed.

(** A tolerance-0 accepted position is a cell, so reading it is C02/C03-safe. *)
Theorem C05_validate_zero : forall (V : Type) nc (g : gmap V) pos,
  length (g_size g) = length pos -> (validate nc g pos 0 = true <-> valid (g_size g) pos).
Proof.
  intros V nc g pos L. rewrite (C05_validate_exact V nc g pos 0 L), (valid_nth _ _ L). split.
  - intros H i s p H1 H2. specialize (H i s p H1 H2). destruct (i <? nc)%nat; lia.
  - intros H i s p H1 H2. specialize (H i s p H1 H2). destruct (i <? nc)%nat; lia.
Qed.

(** Non-vacuity: a 5x40x4 map with block width 32 and NONCYCLIC = 2. *)
Example C02_ex : good_size (2 ^ 5) 2 [5; 40; 4] /\ valid [5; 40; 4] [4; 39; 3] /\
  slot 2 5 (reset 2 5 [5; 40; 4] (fun _ => 0) (gmap_init 0 (fun _ => 0))) [4; 39; 3] = 4639 /\
  g_ser (reset 2 5 [5; 40; 4] (fun _ => 0) (gmap_init 0 (fun _ => 0))) = 8192.
Proof.
  split; [|split; [|split; reflexivity]].
  - split; [repeat constructor|reflexivity].
  - repeat constructor; discriminate.
Qed.

Example C03_ex :
  aruns (fun v => 0 <=? v) (2 ^ 5) 2 (fun _ => None)
    [OReset 0%nat [5; 40; 4]; OWrite 0%nat [1; 2; 3] 7; OReset 1%nat [6; 40; 4]; OClear 1%nat 9;
     OCopyPart 1%nat 0%nat [1; 2; 3] [1; 2; 3]]
    (aset (aset (aset (aset (aset (fun _ => None) 0%nat ([5; 40; 4], fun _ => None))
       0%nat ([5; 40; 4], fun p => if list_eq_dec Z.eq_dec p [1; 2; 3] then Some 7 else None))
       1%nat ([6; 40; 4], fun _ => None))
       1%nat ([6; 40; 4], fun _ => Some 9))
       1%nat ([6; 40; 4], fun p => if in_boxb [1; 2; 3] [1; 2; 3] p
                           then (if list_eq_dec Z.eq_dec p [1; 2; 3] then Some 7 else None) else Some 9)).
Proof.
  econstructor; [apply A_reset; split; [repeat constructor|reflexivity]|].
  econstructor; [eapply A_write; [reflexivity|repeat constructor; discriminate]|].
  econstructor; [apply A_reset; split; [repeat constructor|reflexivity]|].
  econstructor; [eapply A_clear; reflexivity|].
  econstructor; [|constructor].
  eapply A_copy_part with (sz' := [5; 40; 4]); try reflexivity; [discriminate|].
  intros p Hp. destruct p as [|x [|y [|z [|? ?]]]]; simpl in Hp;
    try discriminate; try (rewrite ?andb_false_r in Hp; discriminate).
  repeat (apply andb_prop in Hp; destruct Hp as [Hp ?] || idtac).
  split; repeat constructor; lia.
Qed.

Example C05_ex : validate 2 (reset 2 5 [5; 40; 4] (fun _ => 0) (gmap_init 0 (fun _ => 0))) [2; 37; 3] 2 = true
  /\ validate 2 (reset 2 5 [5; 40; 4] (fun _ => 0) (gmap_init 0 (fun _ => 0))) [2; 38; 3] 2 = false.
Proof. split; reflexivity. Qed.

Print Assumptions C02_no_alias.
Print Assumptions C03_history.
Print Assumptions C04_box_exact.
Print Assumptions C05_validate_exact.
Print Assumptions C05_validate_neighbours.
Print Assumptions C05_validate_zero.
