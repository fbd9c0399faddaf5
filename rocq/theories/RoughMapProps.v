(** C82: the 2D costmap of the distances is nowhere above the costs of the headings (a premise of Unreach3DProps.v). *)
From Coq Require Import ZArith List Lia Bool ZifyBool.
From Verif Require Import Common DistMap Overlay OverlaySpec OverlayProps.
Import ListNotations.
Lemma fold_min_le l : forall a x, (x = a \/ In x l) -> (fold_left Z.min l a <= x)%Z.
Proof.
  induction l as [|b l IH]; intros a x H; cbn [fold_left].
  - destruct H as [->|[]]. lia.
  - destruct H as [->|[->|H]]; [etransitivity; [apply (IH _ _ (or_introl eq_refl))|lia]|etransitivity; [apply (IH _ _ (or_introl eq_refl))|lia]|apply IH; right; exact H].
Qed.
Lemma lowest_le f n t : (0 <= t < n)%Z -> (lowest f n <= f t)%Z.
Proof. intros H. apply fold_min_le. right. apply List.in_map. apply in_range_excl. lia. Qed.
(** If updates do not overwrite and the latest one covers this heading, the 2D costmap is not above the cost. *)
Theorem C82_rough_cost_is_not_above unknown es : Forall good_event es ->
  (forall m u, In (EMap m) es -> In (EUpdate u) es -> fits m u = true -> fits_yaw m u) ->
  forall m cur kept, track es = Some (m, cur, kept) ->
  exists o, orun unknown false es = Ok (Some o) /\
    forall x y t, (0 <= x < m_w m)%Z -> (0 <= y < m_h m)%Z -> (0 <= t < m_a m)%Z ->
      (forall u, cur = Some u -> (u_yaw u <= t < u_yaw u + u_a u)%Z) -> (o_rough o (x, y) <= o_cm o (x, y, t))%Z.
Proof.
  intros G Y m cur kept T. destruct (C13_costmap_is_static_plus_latest_update unknown false es G Y) as (s & E & M). rewrite T in M.
  destruct M as (o & -> & W & H & A & _ & Cm & Ro & _). exists o. split; [exact E|]. intros x y t Hx Hy Ht Hu.
  rewrite Ro by (unfold in2; rewrite W, H; cbn [fst snd]; lia). rewrite Cm by (unfold in3, in2; rewrite W, H, A; cbn [fst snd]; lia).
  unfold rough_in_force, cost_in_force. cbv zeta. cbn [fst snd].
  pose proof (lowest_le (fun t => map_cost unknown m ((x, y), t)) (m_a m) t Ht) as B. destruct cur as [u|]; [|exact B]. specialize (Hu u eq_refl).
  unfold update_cost. cbn [fst snd].
  destruct ((0 <=? x - u_x u) && (x - u_x u <? u_w u) && (0 <=? y - u_y u) && (y - u_y u <? u_h u))%Z eqn:Q.
  - rewrite (proj2 (Z.leb_le 0 (t - u_yaw u))) by lia. rewrite (proj2 (Z.ltb_lt (t - u_yaw u) (u_a u))) by lia. cbn [andb laid_over].
    pose proof (lowest_le (fun t => nth (Z.to_nat ((t * u_h u + (y - u_y u)) * u_w u + (x - u_x u))) (u_data u) 0%Z) (u_a u) (t - u_yaw u) ltac:(lia)) as B2.
    apply Z.max_le_compat; assumption.
  - cbn [andb laid_over]. exact B.
Qed.
(** Otherwise it may be: updates that overwrite clear an obstacle in the costmap but not in the 2D costmap, *)
Theorem C82_overwritten_cost_is_not_below_refuted : exists m u o, good_map m /\ good_update u /\ fits m u = true /\ fits_yaw m u /\
  orun 100 true [EMap m; EUpdate u] = Ok (Some o) /\ forall x t, (x = 0 \/ x = 1)%Z -> (t = 0 \/ t = 1)%Z -> o_cm o (x, 0, t)%Z = 0%Z /\ o_rough o (x, 0)%Z = 100%Z.
Proof.
  exists (MMsg 0 2 1 2 [100; 100; 100; 100]%Z), (UMsg 0 0 0 0 2 1 2 [0; 0; 0; 0]%Z). eexists.
  split; [unfold good_map; cbn; lia|]. split; [unfold good_update; cbn; lia|]. split; [reflexivity|]. split; [unfold fits_yaw; cbn; lia|]. split; [vm_compute; reflexivity|].
  intros x t [-> | ->] [-> | ->]; vm_compute; split; reflexivity.
Qed.
(** and an update of some of the headings blocks the cell in the 2D costmap for the others too. *)
Theorem C82_cost_of_an_absent_heading_refuted : exists m u o, good_map m /\ good_update u /\ fits m u = true /\ fits_yaw m u /\
  orun 100 false [EMap m; EUpdate u] = Ok (Some o) /\ o_cm o (0, 0, 1)%Z = 0%Z /\ o_rough o (0, 0)%Z = 100%Z.
Proof.
  exists (MMsg 0 1 1 2 [0; 0]%Z), (UMsg 0 0 0 0 1 1 1 [100]%Z). eexists.
  split; [unfold good_map; cbn; lia|]. split; [unfold good_update; cbn; lia|]. split; [reflexivity|]. split; [unfold fits_yaw; cbn; lia|]. split; [vm_compute; reflexivity|].
  vm_compute; split; reflexivity.
Qed.

(** Two updates of all headings on a map with two headings: the second is in force. *)
Example ex_rough : let m := MMsg 0 2 1 2 [0; 10; 100; 20]%Z in let u1 := UMsg 1 0 0 0 2 1 2 [100; 100; 100; 100]%Z in let u2 := UMsg 2 1 0 0 1 1 2 [30; 100]%Z in
  Forall good_event [EMap m; EUpdate u1; EUpdate u2] /\ track [EMap m; EUpdate u1; EUpdate u2] = Some (m, Some u2, None) /\
  exists o, orun 100 false [EMap m; EUpdate u1; EUpdate u2] = Ok (Some o) /\
    (o_rough o (0, 0), o_rough o (1, 0), o_cm o (0, 0, 0), o_cm o (0, 0, 1), o_cm o (1, 0, 0), o_cm o (1, 0, 1))%Z = (0, 30, 0, 100, 30, 100)%Z.
Proof.
  cbv zeta. split; [repeat constructor; cbn; lia|]. split; [reflexivity|]. eexists. split; [vm_compute; reflexivity|]. vm_compute. reflexivity.
Qed.

Print Assumptions C82_rough_cost_is_not_above.
Print Assumptions C82_overwritten_cost_is_not_below_refuted.
Print Assumptions C82_cost_of_an_absent_heading_refuted.
