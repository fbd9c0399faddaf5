(** C10, C11: the distance-to-goal map of the planner. *)
From Coq Require Import Permutation ZifyBool.
From Verif Require Import Common CostAlg CostZ CostF32 AStar DistMap DistMapSpec DistMapProofs DistMapNum.
Local Open Scope Z_scope.

(** The moves of the code stay inside the box spanned by their ends. *)
Definition in_box (d c : cell) : bool :=
  (Z.min 0 (fst d) <=? fst c) && (fst c <=? Z.max 0 (fst d)) && (Z.min 0 (snd d) <=? snd c) && (snd c <=? Z.max 0 (snd d)).
Lemma moves_in_box : forallb (fun d => forallb (in_box d) (line_cells d)) moves = true.
Proof. vm_compute. reflexivity. Qed.

(** The set-up of a fill: the moves of the code with non-negative length costs, non-negative weighted costs, a finite
    non-negative overshoot, a finite start value, at least one cell per batch. *)
Definition sane {F} (K : cost_ops F) (num : F -> Prop) (E : @env F) : Prop :=
  (1 <= e_ntask E)%nat /\
  (exists euclid, e_diffs E = search_diffs euclid /\ forall n, num (euclid n) /\ not_below K (euclid n) (fzero K)) /\
  (forall ds cs, num (e_extra E ds cs) /\ not_below K (e_extra E ds cs) (fzero K)) /\
  (finite K (e_over E) /\ not_below K (e_over E) (fzero K)) /\
  (num (e_g0 E) /\ finite K (e_g0 E)).

(** Any order in which the team of threads delivers its results. *)
Definition any_schedule {F} (O : @oracle F) : Prop := forall k l, Permutation (o_order O k l) l.

Lemma sane_diff {F} (K : cost_ops F) num (E : @env F) : sane K num E ->
  forall ds, In ds (e_diffs E) -> num (df_euclid ds) /\ fltb K (df_euclid ds) (fzero K) = false /\
    forall c, In c (df_pos ds) -> Z.min 0 (fst (df_d ds)) <= fst c <= Z.max 0 (fst (df_d ds)) /\
                                  Z.min 0 (snd (df_d ds)) <= snd c <= Z.max 0 (snd (df_d ds)).
Proof.
  intros (_ & (euclid & Ee & Hu) & _) ds H. rewrite Ee in H. unfold search_diffs in H. apply in_map_iff in H as (d & <- & Hd).
  simpl. split; [apply Hu|]. split; [apply Hu|]. intros c Hc. pose proof moves_in_box as B. rewrite forallb_forall in B.
  specialize (B d Hd). rewrite forallb_forall in B. specialize (B c Hc). unfold in_box in B. lia.
Qed.

Section C10.
  Context {F : Type} (K : cost_ops F) (num : F -> Prop) (D : dist_laws K num).
  Let L := dl_base K num D.

  (** The search stops, never reads outside the map, and remembers the goal. *)
  Theorem C10_fill_terminates (E : @env F) s e : sane K num E -> inmap E s = true -> inmap E e = true ->
    exists N, forall fuel O d0, (N <= fuel)%nat -> any_schedule O -> exists d, create K fuel O E d0 s e = Done d /\ dm_goal d = e.
  Proof.
    intros HS Hs He. pose proof (sane_diff K num E HS) as Hd. destruct HS as (S1 & _ & S3 & S4 & S5).
    exists (2 + slack K E [(e_g0 E, e)] (g_init K E e))%nat. intros fuel O d0 Hf HO.
    pose proof (create_values K num D E O S1 Hd S3 S4 HO S5 s e fuel d0 Hs He) as H.
    destruct (create K fuel O E d0 s e) as [d| |]; [exists d; tauto|lia|tauto].
  Qed.

  (** What the completed map contains.  [start_value] is the start cell's value; cells whose route costs exceed it by more
      than the overshoot may be left out. *)
  Definition start_value (E : @env F) (d : dmap) (s e : cell) : F := if cell_dec s e then e_g0 E else dm_g d s.

  Lemma create_inv (E : @env F) fuel O d0 s e d : sane K num E -> any_schedule O -> inmap E s = true -> inmap E e = true ->
    create K fuel O E d0 s e = Done d ->
    dm_g d e = fzero K /\
    exists g', (forall v, v <> e -> dm_g d v = g' v) /\ (forall x, num (g' x)) /\ (forall x, fleb K (g' x) (fmax K) = true) /\
      fleb K (g' e) (e_g0 E) = true /\ fleb K (e_g0 E) (g' e) = true /\
      (forall x, g' x = fmax K \/ route K E e (e_g0 E) x (g' x)) /\
      (forall v c, route K E e (e_g0 E) v c -> num c /\ (fltb K (g' s) (fsub K c (e_over E)) = false -> fleb K (g' v) c = true)).
  Proof.
    intros HS HO Hs He H. pose proof (sane_diff K num E HS) as Hd. destruct HS as (S1 & _ & S3 & S4 & S5).
    unfold create in H. rewrite Hs, He in H. cbn [negb andb] in H. fold (g_init K E e) in H.
    pose proof (fill_spec K num D E O S1 Hd S3 S4 HO S5 s e He fuel) as G.
    destruct (fillCostmap K fuel O E s (g_init K E e) [(e_g0 E, e)]) as [g' ed| |]; try discriminate.
    injection H as <-. cbn [dm_g]. split; [apply upd_same|]. exists g'. destruct G as (G1 & G2 & G3 & _ & G4).
    split; [intros v Hv; apply upd_other; exact Hv|]. split; [exact G1|].
    assert (Q : forall x, fleb K (g' x) (fmax K) = true).
    { intros x. eapply (lw_le_trans K L); [apply G2|]. unfold g_init, upd. destruct (cell_dec x e); [apply (lw_lt_le K L), S5|].
      apply (le_refl K num D), (dl_max K num D). }
    split; [exact Q|]. specialize (G2 e) as G2e. unfold g_init in G2e. rewrite upd_same in G2e. split; [exact G2e|]. split; [|auto].
    destruct (G3 e) as [X|X].
    - rewrite X. apply (lw_lt_le K L), S5.
    - apply (route_ge K num D E Hd S3 e _ _ _ (proj1 S5) X).
  Qed.

  Theorem C10_values_are_shortest (E : @env F) fuel O d0 s e d : sane K num E -> any_schedule O ->
    inmap E s = true -> inmap E e = true -> create K fuel O E d0 s e = Done d ->
    dm_g d e = fzero K /\
    forall v, v <> e ->
      (dm_g d v = fmax K \/ route K E e (e_g0 E) v (dm_g d v)) /\
      (forall c, route K E e (e_g0 E) v c -> not_below K (start_value E d s e) (fsub K c (e_over E)) ->
         fleb K (dm_g d v) c = true).
  Proof.
    intros HS HO Hs He H. pose proof HS as (_ & _ & _ & S4 & S5).
    destruct (create_inv E fuel O d0 s e d HS HO Hs He H) as (Z & g' & A & B & C & D1 & D2 & G & R). split; [exact Z|].
    intros v Hv. rewrite (A v Hv). split; [apply G|]. intros c Hr Hn. apply (R v c Hr). unfold not_below, start_value in Hn.
    destruct (cell_dec s e) as [->|N]; [|rewrite (A s N) in Hn; exact Hn].
    destruct (fltb K (g' e) (fsub K c (e_over E))) eqn:X; [|reflexivity].
    pose proof (lw_le_lt_trans K L _ _ _ D2 X). congruence.
  Qed.

  (** The start cell itself always has its exact cost, and so does every cell when the start cannot be reached. *)
  Theorem C10_start_cell_is_exact (E : @env F) fuel O d0 s e d : sane K num E -> any_schedule O ->
    inmap E s = true -> inmap E e = true -> s <> e -> create K fuel O E d0 s e = Done d ->
    (dm_g d s = fmax K \/ route K E e (e_g0 E) s (dm_g d s)) /\
    (forall c, route K E e (e_g0 E) s c -> fleb K (dm_g d s) c = true) /\
    (dm_g d s = fmax K -> forall v c, v <> e -> route K E e (e_g0 E) v c -> fleb K (dm_g d v) c = true).
  Proof.
    intros HS HO Hs He N H. pose proof HS as (_ & _ & _ & [S4 S4'] & S5).
    destruct (create_inv E fuel O d0 s e d HS HO Hs He H) as (Z & g' & A & B & C & D1 & D2 & G & R).
    rewrite (A s N). split; [apply G|].
    assert (Q : forall v c, num c -> fleb K (g' v) (g' s) = true -> fltb K (g' s) (fsub K c (e_over E)) = true -> fleb K (g' v) c = true).
    { intros v c Nc Hle X. eapply (lw_le_trans K L); [exact Hle|]. apply (lw_lt_le K L).
      eapply (lw_lt_le_trans K L); [exact X|]. apply (dl_sub_le K num D); auto. }
    split.
    - intros c Hr. destruct (R s c Hr) as [Nc R']. destruct (fltb K (g' s) (fsub K c (e_over E))) eqn:X; [|apply R'; reflexivity].
      apply (Q s c Nc); auto. apply (le_refl K num D), B.
    - intros M v c Hv Hr. rewrite (A v Hv). destruct (R v c Hr) as [Nc R'].
      destruct (fltb K (g' s) (fsub K c (e_over E))) eqn:X; [|apply R'; reflexivity]. apply (Q v c Nc); auto. rewrite M. apply C.
  Qed.

  Theorem C10_unreachable_cells_keep_the_unreachable_value (E : @env F) fuel O d0 s e d v : sane K num E -> any_schedule O ->
    inmap E s = true -> inmap E e = true -> create K fuel O E d0 s e = Done d -> v <> e ->
    (forall c, ~ route K E e (e_g0 E) v c) -> dm_g d v = fmax K.
  Proof.
    intros HS HO Hs He H Hv Hn. destruct (C10_values_are_shortest E fuel O d0 s e d HS HO Hs He H) as [_ G].
    destruct (G v Hv) as [[X|X] _]; [exact X|]. destruct (Hn _ X).
  Qed.

  (** The order of the heap and of the threads does not matter at the start cell. *)
  Theorem C10_start_value_is_schedule_independent (E : @env F) fuel1 fuel2 O1 O2 d01 d02 s e d1 d2 : sane K num E ->
    any_schedule O1 -> any_schedule O2 -> inmap E s = true -> inmap E e = true -> s <> e ->
    create K fuel1 O1 E d01 s e = Done d1 -> create K fuel2 O2 E d02 s e = Done d2 ->
    fleb K (dm_g d1 s) (dm_g d2 s) = true.
  Proof.
    intros HS HO1 HO2 Hs He N H1 H2.
    destruct (C10_start_cell_is_exact E fuel1 O1 d01 s e d1 HS HO1 Hs He N H1) as (_ & A & _).
    destruct (C10_start_cell_is_exact E fuel2 O2 d02 s e d2 HS HO2 Hs He N H2) as ([X|X] & _ & _); [|apply A; exact X].
    rewrite X. destruct (create_inv E fuel1 O1 d01 s e d1 HS HO1 Hs He H1) as (_ & g' & Q & _ & C & _). rewrite (Q s N). apply C.
  Qed.
End C10.

(** The same at the arithmetic the code uses. *)
Theorem C10_binary32_start_cell_is_exact (E : @env f32) fuel O d0 s e d : sane KF32 num32 E -> any_schedule O ->
  inmap E s = true -> inmap E e = true -> s <> e -> create KF32 fuel O E d0 s e = Done d ->
  (dm_g d s = fmax KF32 \/ route KF32 E e (e_g0 E) s (dm_g d s)) /\
  (forall c, route KF32 E e (e_g0 E) s c -> fleb KF32 (dm_g d s) c = true).
Proof.
  intros HS HO Hs He N H. destruct (C10_start_cell_is_exact KF32 num32 KF32_dist E fuel O d0 s e d HS HO Hs He N H) as (A & B & _). auto.
Qed.

(** ** Histories of calls (C11) *)
Section C11.
  Context {F : Type} (K : cost_ops F) (num : F -> Prop) (D : dist_laws K num).

  Inductive call := CCreate (s e : cell) | CUpdate (s e lo hi : cell).
  Definition call_goal (c : call) : cell := match c with CCreate _ e => e | CUpdate _ e _ _ => e end.
  Definition call_inside (E : @env F) (c : call) : Prop :=
    match c with
    | CCreate s e => inmap E s = true /\ inmap E e = true
    | CUpdate s e lo hi => inmap E s = true /\ inmap E e = true /\ forall c, fst lo <= fst c <= fst hi -> snd lo <= snd c <= snd hi -> inmap E c = true
    end.
  Definition do_call (fuel : nat) (O : @oracle F) (E : @env F) (d : @dmap F) (c : call) : res :=
    match c with CCreate s e => create K fuel O E d s e | CUpdate s e lo hi => update K fuel O E d s e lo hi end.
  Fixpoint do_calls (fuel : nat) (O : @oracle F) (E : @env F) (d : @dmap F) (cs : list call) : res :=
    match cs with
    | [] => Done d
    | c :: cs' => match do_call fuel O E d c with Done d' => do_calls fuel O E d' cs' | r => r end
    end.

  (** Every value is the unreachable value or the cost of a route from [e]. *)
  Definition values_for (E : @env F) (e : cell) (g : cell -> F) : Prop :=
    forall v, g v = fmax K \/ route K E e (e_g0 E) v (g v) \/ route K E e (fzero K) v (g v).

  (** On one costmap, with starts and goals inside the map: after every call that changes the goal the values are the freshly
      computed ones, and after any call every value is the cost of a route from the goal given last. *)
  Theorem C11_values_belong_to_the_last_goal_partial (E : @env F) fuel O cs c d : sane K num E -> any_schedule O ->
    (forall x, In x (cs ++ [c]) -> call_inside E x) -> do_calls fuel O E (init K) (cs ++ [c]) = Done d ->
    dm_goal d = call_goal c /\ values_for E (call_goal c) (dm_g d).
  Proof.
    intros HS HO Hin H. pose proof (sane_diff K num E HS) as Hd. destruct HS as (S1 & _ & S3 & S4 & S5).
    assert (One : forall d0 x d', (forall e, dm_goal d0 = e -> inmap E e = true -> route_values K num E e (dm_g d0)) ->
      call_inside E x -> do_call fuel O E d0 x = Done d' -> dm_goal d' = call_goal x /\ route_values K num E (call_goal x) (dm_g d')).
    { intros d0 [s e|s e lo hi] d' H0 Hx Hc; simpl in *.
      - destruct Hx as [Hs He]. pose proof (create_values K num D E O S1 Hd S3 S4 HO S5 s e fuel d0 Hs He) as G.
        rewrite Hc in G. exact G.
      - destruct Hx as (Hs & He & Hr).
        destruct (update_values K num D E O S1 Hd S3 S4 HO S5 s e lo hi d0 Hs He) as [G _].
        + intros p Hp. apply in_rect_cells in Hp. apply Hr; apply Hp.
        + intros Eg. apply H0; auto.
        + specialize (G fuel). rewrite Hc in G. exact G. }
    assert (G : forall cs d0, (forall e, dm_goal d0 = e -> inmap E e = true -> route_values K num E e (dm_g d0)) ->
      (forall x, In x (cs ++ [c]) -> call_inside E x) -> do_calls fuel O E d0 (cs ++ [c]) = Done d ->
      dm_goal d = call_goal c /\ route_values K num E (call_goal c) (dm_g d)).
    { clear cs H Hin. induction cs as [|x cs IH]; intros d0 H0 Hin H; cbn [app do_calls] in H.
      - destruct (do_call fuel O E d0 c) as [d'| |] eqn:X; try discriminate. injection H as ->.
        apply (One d0 c d H0); [apply Hin; left; reflexivity|exact X].
      - destruct (do_call fuel O E d0 x) as [d'| |] eqn:X; try discriminate.
        destruct (One d0 x d' H0) as [A B]; [apply Hin; left; reflexivity|exact X|].
        apply (IH d'); [|intros y Hy; apply Hin; right; exact Hy|exact H]. intros e <- He. rewrite A. exact B. }
    destruct (G cs (init K)) as [A B]; auto.
    - intros e <- He. discriminate.
    - split; [exact A|]. intros v. apply B.
  Qed.

  (** A call with another goal builds the map afresh. *)
  Theorem C11_a_new_goal_rebuilds_the_map (E : @env F) fuel O d s e lo hi : e <> dm_goal d ->
    update K fuel O E d s e lo hi = create K fuel O E d s e.
  Proof. intros H. unfold update. destruct (cell_dec e (dm_goal d)); [congruence|reflexivity]. Qed.

  (** Every call of such a history completes. *)
  Theorem C11_calls_complete (E : @env F) O d c : sane K num E -> any_schedule O -> call_inside E c ->
    (inmap E (dm_goal d) = true -> route_values K num E (dm_goal d) (dm_g d)) ->
    exists N, forall fuel, (N <= fuel)%nat -> exists d', do_call fuel O E d c = Done d'.
  Proof.
    intros HS HO Hc Hv. pose proof (sane_diff K num E HS) as Hd.
    destruct c as [s e|s e lo hi]; simpl in *.
    - destruct Hc as [Hs He]. destruct (C10_fill_terminates K num D E s e HS Hs He) as [N HN]. exists N. intros fuel Hf.
      destruct (HN fuel O d Hf HO) as (d' & X & _). eauto.
    - destruct HS as (S1 & _ & S3 & S4 & S5). destruct Hc as (Hs & He & Hr).
      apply (update_values K num D E O S1 Hd S3 S4 HO S5 s e lo hi d Hs He).
      + intros p Hp. apply in_rect_cells in Hp. apply Hr; apply Hp.
      + intros Eg. rewrite <- Eg. apply Hv. rewrite Eg. exact He.
  Qed.
End C11.

(** ** Concrete maps: 10 per cell, integers *)
Module DistExample.
  Fixpoint argmin (l : list (option Z * cell)) (i best : nat) (bv : option Z) : nat :=
    match l with [] => best | (p, _) :: l' => if zlt p bv then argmin l' (S i) i p else argmin l' (S i) best bv end.
  Definition orc : @oracle (option Z) := Orc (fun _ l => argmin l 0 0 None) (fun _ l => l).
  Definition euc (n : Z) : option Z := Some (Z.sqrt (100 * n)).
  Definition blocked (obst : list cell) (c : cell) : Z := if existsb (fun o => if cell_dec o c then true else false) obst then 100 else 0.
  Definition mk (w h : Z) (obst : list cell) : @env (option Z) :=
    Env w h (search_diffs euc) (blocked obst) (fun _ _ => Some 0) (Some 1000) (Some (-5)) 1.
  Definition value (r : @res (option Z)) (c : cell) : option (option Z) := match r with Done d => Some (dm_g d c) | _ => None end.

  Definition is_done (r : @res (option Z)) : bool := match r with Done _ => true | _ => false end.
  Definition get (r : @res (option Z)) : dmap := match r with Done d => d | _ => init KZ end.
  Lemma done_get r : is_done r = true -> r = Done (get r).
  Proof. destruct r; [reflexivity|discriminate|discriminate]. Qed.

  Lemma mk_sane w h obst : sane KZ anyZ (mk w h obst).
  Proof.
    split; [simpl; lia|]. split.
    - exists euc. split; [reflexivity|]. intros n. split; [exact I|]. unfold not_below, euc.
      pose proof (Z.sqrt_nonneg (100 * n)). generalize dependent (Z.sqrt (100 * n)). intros z Hz. simpl. lia.
    - split; [intros; split; [exact I|reflexivity]|]. split; [split; reflexivity|split; [exact I|reflexivity]].
  Qed.
  Lemma orc_fair : any_schedule orc.
  Proof. intros k l. apply Permutation_refl. Qed.

  (** Two corridors (rows 0 and 4) separated by a thick wall, joined on the right; the goal is at (5,2). *)
  Definition wall := [(0,1);(1,1);(2,1);(3,1);(0,2);(1,2);(2,2);(3,2);(0,3);(1,3);(2,3);(3,3)].
  Definition open_map := mk 6 5 wall.
  Definition closed_map := mk 6 5 ((1,4) :: (2,4) :: wall).
  Definition built := create KZ 400 orc open_map (init KZ) (0,0) (5,2).

  Example fill_example : value built (0,0) = Some (Some 51) /\ value built (0,2) = Some None /\ value built (5,2) = Some (Some 0).
  Proof. vm_compute. auto. Qed.
  Example start_route : built = Done (get built) /\ inmap open_map (0,0) = true /\ inmap open_map (5,2) = true.
  Proof. split; [apply done_get; vm_compute; reflexivity|split; reflexivity]. Qed.
  Definition history := do_calls KZ 400 orc open_map (init KZ) [CCreate (0,0) (5,2); CUpdate (0,0) (5,2) (1,0) (2,4)].
  Example history_example : history = Done (get history) /\ dm_goal (get history) = (5,2) /\ dm_g (get history) (0,0) = Some 51.
  Proof. split; [apply done_get; vm_compute; reflexivity|split; vm_compute; reflexivity]. Qed.
End DistExample.

(** Refuted: when a goal arrives while the start is outside the map, the goal is remembered but nothing is computed; the next
    update for that goal then works on the values of the goal before. *)
Theorem C11_start_outside_the_map_refuted : exists d d' : @dmap (option Z),
  do_calls KZ 400 DistExample.orc DistExample.open_map (init KZ)
    [CCreate (0,0) (5,2); CCreate (-1,0) (0,4); CUpdate (0,0) (0,4) (1,0) (1,0)] = Done d /\
  dm_goal d = (0,4) /\ dm_g d (5,2) = Some 0 /\ dm_g d (0,4) = Some 51 /\
  create KZ 400 DistExample.orc DistExample.open_map (init KZ) (0,0) (0,4) = Done d' /\ dm_g d' (5,2) = Some 53 /\ dm_g d' (0,4) = Some 0.
Proof.
  exists (DistExample.get (do_calls KZ 400 DistExample.orc DistExample.open_map (init KZ)
    [CCreate (0,0) (5,2); CCreate (-1,0) (0,4); CUpdate (0,0) (0,4) (1,0) (1,0)])),
    (DistExample.get (create KZ 400 DistExample.orc DistExample.open_map (init KZ) (0,0) (0,4))).
  split; [apply DistExample.done_get; vm_compute; reflexivity|]. split; [vm_compute; reflexivity|]. split; [vm_compute; reflexivity|].
  split; [vm_compute; reflexivity|]. split; [apply DistExample.done_get; vm_compute; reflexivity|]. split; vm_compute; reflexivity.
Qed.

(** Refuted: after the costmap changed, an update whose area contains the change still reports the old cost behind a corridor
    that was closed, because only one connected part of the affected cells is recomputed. *)
Theorem C11_update_keeps_stale_values_refuted : exists d d' d2 : @dmap (option Z),
  create KZ 400 DistExample.orc DistExample.open_map (init KZ) (0,0) (5,2) = Done d /\
  (forall c, ~ (1 <= fst c <= 2 /\ 0 <= snd c <= 4) -> e_cm DistExample.open_map c = e_cm DistExample.closed_map c) /\
  update KZ 400 DistExample.orc DistExample.closed_map d (0,0) (5,2) (1,0) (2,4) = Done d' /\ dm_g d' (0,4) = Some 51 /\
  create KZ 400 DistExample.orc DistExample.closed_map (init KZ) (0,0) (5,2) = Done d2 /\ dm_g d2 (0,4) = fmax KZ.
Proof.
  exists (DistExample.get DistExample.built),
    (DistExample.get (update KZ 400 DistExample.orc DistExample.closed_map (DistExample.get DistExample.built) (0,0) (5,2) (1,0) (2,4))),
    (DistExample.get (create KZ 400 DistExample.orc DistExample.closed_map (init KZ) (0,0) (5,2))).
  split; [apply DistExample.done_get; vm_compute; reflexivity|]. split.
  - intros c Hc. simpl. unfold DistExample.blocked. cbn [existsb].
    destruct (cell_dec (1,4) c) as [<-|]; [exfalso; apply Hc; simpl; lia|].
    destruct (cell_dec (2,4) c) as [<-|]; [exfalso; apply Hc; simpl; lia|]. reflexivity.
  - split; [apply DistExample.done_get; vm_compute; reflexivity|]. split; [vm_compute; reflexivity|].
    split; [apply DistExample.done_get; vm_compute; reflexivity|vm_compute; reflexivity].
Qed.

(** Refuted: even on an unchanged costmap an update may leave a value above the shortest cost (only cells next to the
    recomputed part are reopened, but moves are up to four cells long). *)
Theorem C11_update_can_lose_the_shortest_cost_refuted : exists d d' : @dmap (option Z),
  create KZ 400 DistExample.orc (DistExample.mk 7 5 []) (init KZ) (0,0) (6,2) = Done d /\ dm_g d (2,0) = Some 39 /\
  update KZ 400 DistExample.orc (DistExample.mk 7 5 []) d (0,0) (6,2) (2,1) (2,1) = Done d' /\ dm_g d' (2,0) = Some 40.
Proof.
  pose (d := DistExample.get (create KZ 400 DistExample.orc (DistExample.mk 7 5 []) (init KZ) (0,0) (6,2))).
  exists d, (DistExample.get (update KZ 400 DistExample.orc (DistExample.mk 7 5 []) d (0,0) (6,2) (2,1) (2,1))).
  split; [apply DistExample.done_get; vm_compute; reflexivity|]. split; [vm_compute; reflexivity|].
  split; [apply DistExample.done_get; vm_compute; reflexivity|vm_compute; reflexivity].
Qed.

Print Assumptions C10_fill_terminates.
Print Assumptions C10_values_are_shortest.
Print Assumptions C10_start_cell_is_exact.
Print Assumptions C10_unreachable_cells_keep_the_unreachable_value.
Print Assumptions C10_start_value_is_schedule_independent.
Print Assumptions C10_binary32_start_cell_is_exact.
Print Assumptions C11_values_belong_to_the_last_goal_partial.
Print Assumptions C11_a_new_goal_rebuilds_the_map.
Print Assumptions C11_calls_complete.
Print Assumptions C11_start_outside_the_map_refuted.
Print Assumptions C11_update_keeps_stale_values_refuted.
Print Assumptions C11_update_can_lose_the_shortest_cost_refuted.
