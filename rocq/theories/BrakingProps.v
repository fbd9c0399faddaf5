(** C90, C91: the tracker brakes in time for the stops of its path, and turns in place stop in time. *)
From Coq Require Import Reals List Lra Lia Psatz.
From Verif Require Import Braking.
Import ListNotations.
Local Open Scope R_scope.

(** A cycle within [D] of the one before, with a linear velocity of at most [V]. *)
Definition allowed (V D : R) (i : mode * R) : Prop :=
  0 <= snd i <= D /\ match fst i with Turn vel | Follow vel _ => 0 <= vel <= V | Clear => True end.

Lemma clip_spec v mx : 0 <= mx -> (0 < v -> 0 <= clip_r v mx <= v) /\ (v <= 0 -> v <= clip_r v mx <= 0) /\ - mx <= clip_r v mx <= mx.
Proof. intros H. unfold clip_r. destruct (Rlt_dec mx v); [lra|]. destruct (Rlt_dec v (- mx)); lra. Qed.
Lemma clip_odd v mx : 0 <= mx -> clip_r (- v) mx = - clip_r v mx.
Proof. intros H. unfold clip_r. destruct (Rlt_dec mx (- v)), (Rlt_dec mx v), (Rlt_dec (- v) (- mx)), (Rlt_dec v (- mx)); lra. Qed.
Lemma set_odd p v vel acc dt : 0 <= vel -> 0 <= dt * acc -> set_r (- p) (- v) vel acc dt = - set_r p v vel acc dt.
Proof.
  intros H1 H2. unfold set_r. rewrite clip_odd by exact H1.
  repeat match goal with |- context [Rlt_dec ?a ?b] => destruct (Rlt_dec a b) end; lra.
Qed.
Lemma set_spec p v vel acc dt : 0 <= vel -> 0 <= dt * acc ->
  let o := set_r p v vel acc dt in
  (o <= Rmax v 0 \/ o = p - dt * acc) /\ (o = clip_r v vel \/ (o = p + dt * acc /\ o <= clip_r v vel) \/ (o = p - dt * acc /\ clip_r v vel <= o)) /\ p - dt * acc <= o <= p + dt * acc.
Proof.
  intros H1 H2. cbv zeta. destruct (clip_spec v vel H1) as (C1 & C2 & _). unfold set_r. set (cv := clip_r v vel) in *.
  assert (cv <= Rmax v 0). { unfold Rmax. destruct (Rle_dec v 0); [apply C2; lra|apply C1; lra]. }
  destruct (Rlt_dec (p + dt * acc) cv); [|destruct (Rlt_dec cv (p - dt * acc))]; split; try lra.
Qed.
Lemma toc_odd x a : x <> 0 -> toc (- x) a = - toc x a.
Proof.
  intros H. unfold toc. replace (2 * - x * a) with (- (2 * x * a)) by ring. rewrite Rabs_Ropp.
  destruct (Rlt_dec (- x) 0), (Rlt_dec x 0); lra.
Qed.
Lemma toc_zero a : toc 0 a = 0.
Proof. unfold toc. replace (2 * 0 * a) with 0 by ring. rewrite Rabs_R0, sqrt_0. ring. Qed.
(** Forward with the square root of the way, backward behind the stop. *)
Lemma toc_spec s x a : s = 1 \/ s = -1 -> 0 < a -> (0 < s * toc (- x * s) a -> 0 < x) /\ (0 < x -> (s * toc (- x * s) a) * (s * toc (- x * s) a) = 2 * a * x).
Proof.
  intros Hs Ha. assert (E : s * toc (- x * s) a = - toc x a \/ x = 0).
  { destruct (Req_dec x 0) as [X|X]; [auto|left]. destruct Hs as [-> | ->].
    - replace (- x * 1) with (- x) by ring. rewrite toc_odd by exact X. ring.
    - replace (- x * -1) with x by ring. ring. }
  destruct E as [E| ->].
  - rewrite E. unfold toc. pose proof (sqrt_pos (Rabs (2 * x * a))) as S. split.
    + intros H. destruct (Rlt_dec x 0); [lra|]. destruct (Req_dec x 0) as [-> |]; [|lra]. replace (2 * 0 * a) with 0 in H by ring. rewrite Rabs_R0, sqrt_0 in H. lra.
    + intros H. destruct (Rlt_dec x 0); [lra|]. assert (P : 0 <= 2 * x * a) by nra. rewrite Rabs_pos_eq by exact P.
      replace (- (- (1) * sqrt (2 * x * a)) * - (- (1) * sqrt (2 * x * a))) with (sqrt (2 * x * a) * sqrt (2 * x * a)) by ring. rewrite sqrt_sqrt by exact P. ring.
  - replace (- 0 * s) with 0 by ring. rewrite toc_zero. split; intros; lra.
Qed.

Section Brake.
  Variables (acc acc_toc look L vel_w : R) (limit : bool) (s V D : R).
  Hypothesis Hs : s = 1 \/ s = -1.
  Hypothesis Ha : 0 < acc_toc <= acc.
  Hypothesis Hl : 0 <= look <= L.
  Hypothesis Hw : 0 <= vel_w.
  Hypothesis HV : 0 <= V.
  Hypothesis HD : 0 <= D.
  Notation a := acc_toc.
  Notation command := (command acc acc_toc look vel_w limit s).
  (** How far behind the stop the robot may come. *)
  Definition overrun : R := V * D / 2 + acc_toc * D * D / 8 + L * acc * D.
  (** Speed towards the stop that can still be braked. *)
  Definition braked (way x : R) : Prop := 0 < x -> x * x + a * D * x <= 2 * a * way + a * D * V + 2 * a * L * acc * D.

  (** What a command is, seen in the direction of the stretch: braking at the limit, or no faster than the square root law. *)
  Lemma command_spec way v m dt : 0 <= dt <= D -> match m with Turn vel | Follow vel _ => 0 <= vel <= V | Clear => True end ->
    let x := s * v in let y := s * command way v m dt in
    0 < y -> y <= x + dt * acc /\ (y <= x - dt * acc \/ (y <= V /\ 0 < way - look * x /\ y * y <= 2 * a * (way - look * x))).
  Proof.
    intros Hdt Hm. cbv zeta. assert (Da : 0 <= dt * acc) by nra. destruct m as [vel|vel curv|]; cbn [Braking.command].
    - (* turning *)
      assert (E : s * set_r v 0 vel acc dt = set_r (s * v) 0 vel acc dt).
      { destruct Hs as [-> | ->]; [rewrite !Rmult_1_l; reflexivity|]. replace (-1 * v) with (- v) by ring. rewrite <- Ropp_0 at 2. rewrite set_odd by lra. ring. }
      rewrite E. intros Hy. destruct (set_spec (s * v) 0 vel acc dt ltac:(lra) Da) as (S1 & _ & S3). split; [lra|]. left.
      destruct S1 as [S1|S1]; [rewrite Rmax_left in S1 by lra; lra|lra].
    - set (u := toc (- (way - s * (v * look)) * s) a). set (v1 := set_r v u vel acc dt).
      assert (E : s * v1 = set_r (s * v) (s * u) vel acc dt).
      { unfold v1. destruct Hs as [-> | ->]; [rewrite !Rmult_1_l; reflexivity|]. replace (-1 * v) with (- v) by ring. replace (-1 * u) with (- u) by ring. rewrite set_odd by lra. ring. }
      assert (First : 0 < s * v1 -> s * v1 <= s * v + dt * acc /\ (s * v1 <= s * v - dt * acc \/ (s * v1 <= V /\ 0 < way - look * (s * v) /\ (s * v1) * (s * v1) <= 2 * a * (way - look * (s * v))))).
      { intros Hy. rewrite E in *. destruct (set_spec (s * v) (s * u) vel acc dt ltac:(lra) Da) as (S1 & S2 & S3). split; [lra|].
        set (o := set_r (s * v) (s * u) vel acc dt) in *. destruct S2 as [S2|[[S2 S2']|[S2 _]]]; [right|right|left; lra].
        all: destruct (clip_spec (s * u) vel ltac:(lra)) as (C1 & C2 & C3).
        all: assert (U : 0 < s * u) by (destruct (Rle_lt_dec (s * u) 0) as [Z|Z]; [specialize (C2 Z); lra|exact Z]); specialize (C1 U).
        all: destruct (toc_spec s (way - s * (v * look)) a Hs ltac:(lra)) as [T1 T2]; fold u in T1, T2.
        all: replace (s * (v * look)) with (look * (s * v)) in * by ring; specialize (T1 U); specialize (T2 T1).
        all: assert (M : o * o <= (s * u) * (s * u)) by (apply Rmult_le_compat; lra).
        all: split; [lra|]; split; [exact T1|]; lra. }
      destruct (andb limit (if Rlt_dec vel_w (Rabs (Rabs v1 * curv)) then true else false)) eqn:B; [|exact First].
      (* the second limitation makes it slower *)
      apply andb_prop in B. destruct B as [_ B]. destruct (Rlt_dec vel_w (Rabs (Rabs v1 * curv))) as [W|W]; [clear B|discriminate B].
      assert (N : v1 <> 0). { intros Z. rewrite Z, Rabs_R0, Rmult_0_l, Rabs_R0 in W. lra. }
      rewrite Rabs_mult, Rabs_Rabsolu in W. set (g := if Rlt_dec v1 0 then -1 else 1).
      assert (Cv : curv <> 0) by (intros Z; rewrite Z, Rabs_R0, Rmult_0_r in W; lra).
      assert (Q : 0 <= Rabs (vel_w / curv) <= Rabs v1).
      { split; [apply Rabs_pos|]. unfold Rdiv. rewrite Rabs_mult, Rabs_inv, (Rabs_pos_eq vel_w) by lra. pose proof (Rabs_pos_lt curv Cv) as Pc.
        apply Rmult_le_reg_r with (Rabs curv); [exact Pc|]. rewrite Rmult_assoc, Rinv_l, Rmult_1_r by lra. lra. }
      set (t := Rabs (vel_w / curv)) in *.
      assert (E2 : s * set_r v1 (g * t) vel acc dt = set_r (s * v1) (s * (g * t)) vel acc dt).
      { destruct Hs as [-> | ->]; [rewrite !Rmult_1_l; reflexivity|]. replace (-1 * v1) with (- v1) by ring. replace (-1 * (g * t)) with (- (g * t)) by ring. rewrite set_odd by lra. ring. }
      rewrite E2. intros Hy. destruct (set_spec (s * v1) (s * (g * t)) vel acc dt ltac:(lra) Da) as (S1 & S2 & S3).
      set (o := set_r (s * v1) (s * (g * t)) vel acc dt) in *.
      assert (Sg : (0 < s * v1 /\ s * (g * t) = t /\ Rabs v1 = s * v1) \/ (s * v1 < 0 /\ s * (g * t) = - t)).
      { unfold g. destruct (Rlt_dec v1 0) as [Z|Z]; destruct Hs as [-> | ->]; [right|left|left|right]; try (split; lra); (split; [lra|]; split; [ring|]); [rewrite Rabs_left by lra; ring|rewrite Rabs_pos_eq by lra; ring]. }
      destruct (clip_spec (s * (g * t)) vel ltac:(lra)) as (C1 & C2 & C3). destruct Sg as [(G1 & G2 & G3)|(G1 & G2)].
      + assert (Lo : o <= s * v1).
        { destruct S1 as [S1|S1]; [|lra]. rewrite G2 in S1. rewrite Rmax_left in S1 by lra. lra. }
        destruct (First G1) as [F1 [F2|(F2 & F3 & F4)]]; (split; [lra|]); [left; lra|right]. split; [lra|]. split; [exact F3|].
        assert (o * o <= (s * v1) * (s * v1)) by (apply Rmult_le_compat; lra). lra.
      + exfalso. assert (Z : s * (g * t) <= 0) by lra. specialize (C2 Z). destruct S1 as [S1|S1]; [rewrite Rmax_right in S1 by lra; lra|lra].
    - rewrite Rmult_0_r. lra.
  Qed.

  Definition sound (c : car) : Prop := - overrun <= left c /\ s * speed c <= V + acc * D /\ braked (left c) (s * speed c).

  Lemma sound_cycle c i : allowed V D i -> sound c -> sound (cycle acc acc_toc look vel_w limit s c i).
  Proof.
    destruct c as [r v], i as [m dt]. intros [Hdt Hm] (H1 & H2 & H3). cbn [fst snd left speed] in *. unfold cycle. cbn [fst snd left speed].
    set (way := r - s * v * dt). set (x := s * v) in *.
    assert (PD : 0 <= L * acc * D) by (repeat apply Rmult_le_pos; lra).
    assert (PV : 0 <= V * D) by (apply Rmult_le_pos; lra).
    assert (PA : 0 <= a * D) by (apply Rmult_le_pos; lra).
    assert (PA2 : 0 <= a * D * D) by (apply Rmult_le_pos; lra).
    assert (Dx : way = r - x * dt) by reflexivity.
    unfold sound. cbn [left speed]. split; [|split].
    - (* not too far *)
      destruct (Rle_lt_dec x 0) as [X|X]; [rewrite Dx; assert (0 <= - x * dt) by (apply Rmult_le_pos; lra); lra|].
      specialize (H3 X). assert (XD : x * dt <= x * D) by (apply Rmult_le_compat_l; lra).
      assert (Sq : 0 <= (2 * x - a * D) * (2 * x - a * D)) by apply Rle_0_sqr.
      unfold overrun. rewrite Dx. apply Rmult_le_reg_l with (8 * a); [lra|].
      assert (8 * a * (r - x * dt) >= 4 * (x * x + a * D * x - a * D * V - 2 * a * L * acc * D) - 8 * a * (x * D)).
      { assert (a * (x * dt) <= a * (x * D)) by (apply Rmult_le_compat_l; lra). lra. }
      lra.
    - pose proof (command_spec way v m dt Hdt Hm) as C. cbv zeta in C. fold x in C. set (y := s * command way v m dt) in *.
      destruct (Rle_lt_dec y 0) as [Y|Y]; [assert (0 <= acc * D) by (apply Rmult_le_pos; lra); lra|].
      destruct (C Y) as [_ [C1|(C1 & _)]]; [assert (0 <= dt * acc) by (apply Rmult_le_pos; lra); lra|assert (0 <= acc * D) by (apply Rmult_le_pos; lra); lra].
    - pose proof (command_spec way v m dt Hdt Hm) as C. cbv zeta in C. fold x in C. intros Y. set (y := s * command way v m dt) in *.
      destruct (C Y) as [C0 [C1|(C1 & C2 & C3)]].
      + (* braking at the limit *)
        assert (A0 : 0 <= dt * acc) by (apply Rmult_le_pos; lra). assert (X : 0 < x) by lra. specialize (H3 X).
        set (q := dt * acc) in *.
        assert (M : y * y + a * D * y <= (x - q) * (x - q) + a * D * (x - q)).
        { assert (y * y <= (x - q) * (x - q)) by (apply Rmult_le_compat; lra). assert (a * D * y <= a * D * (x - q)) by (apply Rmult_le_compat_l; lra). lra. }
        rewrite Dx. assert (Qa : a * dt <= q) by (unfold q; rewrite (Rmult_comm a dt); apply Rmult_le_compat_l; lra).
        (* - 2 x q + q q - a D q <= - 2 a x dt *)
        assert (K : q * q - 2 * x * q - a * D * q + 2 * a * x * dt <= 0).
        { assert (Xq : q <= x) by lra.
          assert (T1 : 0 <= (x - q) * (q - a * dt)) by (apply Rmult_le_pos; lra).
          assert (T2 : 0 <= q * (q - a * dt)) by (apply Rmult_le_pos; lra).
          assert (T3 : 0 <= q * (a * D - a * dt)) by (apply Rmult_le_pos; [lra|]; assert (a * dt <= a * D) by (apply Rmult_le_compat_l; lra); lra).
          nra. }
        nra.
      + (* within the square root law *)
        assert (Y1 : a * D * y <= a * D * V) by (apply Rmult_le_compat_l; lra).
        destruct (Rle_lt_dec 0 x) as [X|X].
        * assert (0 <= look * x) by (apply Rmult_le_pos; lra). assert (0 <= 2 * a * (look * x)) by (apply Rmult_le_pos; lra). assert (0 <= 2 * a * L * acc * D) by (assert (0 <= 2 * a * (L * acc * D)) by (repeat apply Rmult_le_pos; lra); lra). lra.
        * assert (Q : - x <= acc * D). { assert (dt * acc <= acc * D) by (rewrite (Rmult_comm acc D); apply Rmult_le_compat_r; lra). lra. }
          assert (look * - x <= L * (acc * D)) by (apply Rmult_le_compat; lra). assert (2 * a * (look * - x) <= 2 * a * (L * (acc * D))) by (apply Rmult_le_compat_l; lra). lra.
  Qed.

  Lemma sound_start way : 0 <= way -> sound (Car way 0).
  Proof.
    intros Hway. assert (PD : 0 <= L * acc * D) by (repeat apply Rmult_le_pos; lra). assert (0 <= V * D) by (apply Rmult_le_pos; lra). assert (0 <= acc * D) by (apply Rmult_le_pos; lra).
    assert (0 <= a * D) by (apply Rmult_le_pos; lra). assert (0 <= a * D * D) by (apply Rmult_le_pos; lra).
    unfold sound, overrun, braked. cbn [left speed]. rewrite Rmult_0_r. repeat split; lra.
  Qed.
  Lemma sound_braked c : sound c -> 0 < s * speed c -> (s * speed c) * (s * speed c) / (2 * acc_toc) <= left c + V * D / 2 + L * acc * D.
  Proof.
    intros (_ & _ & S) X. specialize (S X). set (x := s * _) in *. set (r := left _) in *.
    assert (0 <= a * D) by (apply Rmult_le_pos; lra). assert (0 <= a * D * x) by (apply Rmult_le_pos; lra).
    apply Rmult_le_reg_r with (2 * a); [lra|]. unfold Rdiv at 1. rewrite Rmult_assoc, Rinv_l by lra. lra.
  Qed.
End Brake.

(** The same robot seen from the other side of the stop. *)
Definition mirror (c : car) : car := Car (- left c) (speed c).
Lemma mirror_command acc a look vel_w limit s way v m dt :
  command acc a look vel_w limit (- s) (- way) v m dt = command acc a look vel_w limit s way v m dt.
Proof.
  destruct m as [vel|vel curv|]; cbn [command]; [reflexivity| |reflexivity].
  replace (- (- way - - s * (v * look)) * - s) with (- (way - s * (v * look)) * s) by ring. reflexivity.
Qed.
Lemma mirror_cycle acc a look vel_w limit s c i :
  mirror (cycle acc a look vel_w limit s c i) = cycle acc a look vel_w limit (- s) (mirror c) i.
Proof.
  destruct c as [r v], i as [m dt]. unfold mirror, cycle. cbn [left speed fst snd].
  replace (- r - - s * v * dt) with (- (r - s * v * dt)) by ring. rewrite mirror_command. reflexivity.
Qed.

Section Back.
  Variables (acc acc_toc look L vel_w : R) (limit : bool) (s V D way0 : R).
  Hypothesis Hs : s = 1 \/ s = -1.
  Hypothesis Ha : 0 < acc_toc <= acc.
  Hypothesis Hl : 0 <= look <= L.
  Hypothesis Hw : 0 <= vel_w.
  Hypothesis HV : 0 <= V.
  Hypothesis HD : 0 <= D.
  Notation a := acc_toc.
  (** The robot has not moved away from the stop yet, or is braked in that direction. *)
  Definition back (c : car) : Prop := (left c <= way0 /\ 0 <= s * speed c) \/ sound acc acc_toc L (- s) V D (mirror c).
  Lemma back_cycle c i : allowed V D i -> back c -> back (cycle acc acc_toc look vel_w limit s c i).
  Proof.
    assert (Hs2 : - s = 1 \/ - s = -1) by lra. intros Hi [[B1 B2]|B].
    - destruct (Rle_lt_dec 0 (s * speed (cycle acc acc_toc look vel_w limit s c i))) as [Y|Y].
      + left. split; [|exact Y]. destruct c as [r v], i as [m dt], Hi as [Hdt _]. cbn [cycle left speed fst snd] in *.
        assert (0 <= s * v * dt) by (apply Rmult_le_pos; lra). lra.
      + right. destruct c as [r v], i as [m dt], Hi as [Hdt Hm]. unfold cycle in *. cbn [left speed fst snd] in *.
        set (way := r - s * v * dt) in *.
        pose proof (command_spec acc acc_toc look vel_w limit (- s) V D Hs2 Ha Hw HV (- way) v m dt Hdt Hm) as C. cbv zeta in C.
        rewrite mirror_command in C. unfold sound, mirror, overrun, braked. cbn [left speed].
        set (y := command _ _ _ _ _ _ _ _ _ _) in *. assert (Da : 0 <= dt * acc) by (apply Rmult_le_pos; lra).
        destruct (C ltac:(lra)) as [C0 [C1|(C1 & C2 & C3)]]; [exfalso; lra|].
        set (x := - s * v) in *. assert (X : x <= 0) by (unfold x; lra).
        assert (DA : dt * acc <= acc * D) by (rewrite (Rmult_comm acc D); apply Rmult_le_compat_r; lra).
        assert (Q : look * - x <= L * (acc * D)) by (apply Rmult_le_compat; lra).
        assert (2 * a * (look * - x) <= 2 * a * (L * (acc * D))) by (apply Rmult_le_compat_l; lra).
        assert (0 <= V * D) by (apply Rmult_le_pos; lra). assert (0 <= acc * D) by (apply Rmult_le_pos; lra).
        assert (PA : 0 <= a * D) by (apply Rmult_le_pos; lra). assert (0 <= a * D * D) by (apply Rmult_le_pos; lra).
        assert (a * D * (- s * y) <= a * D * V) by (apply Rmult_le_compat_l; lra).
        split; [lra|]. split; [lra|]. intros _. lra.
    - right. rewrite mirror_cycle. apply sound_cycle; assumption.
  Qed.
  Lemma back_bound c : back c -> left c <= Rmax way0 (overrun acc acc_toc L V D).
  Proof.
    intros [[B _]|[B _]]; [pose proof (Rmax_l way0 (overrun acc acc_toc L V D)); lra|].
    unfold mirror in B. cbn [left] in B. pose proof (Rmax_r way0 (overrun acc acc_toc L V D)). lra.
  Qed.
End Back.

Section Stops.
  Variables (acc acc_toc look vel_w : R) (limit : bool) (s V D : R).
  Hypothesis Hs : s = 1 \/ s = -1.
  Hypothesis Ha : 0 < acc_toc <= acc.
  Hypothesis Hl : 0 <= look.
  Hypothesis Hw : 0 <= vel_w.
  Hypothesis HV : 0 <= V.
  Hypothesis HD : 0 <= D.
  Lemma sound_approach way is : 0 <= way -> Forall (allowed V D) is -> sound acc acc_toc look s V D (approach acc acc_toc look vel_w limit s way is).
  Proof.
    intros Hway F. unfold approach. assert (S0 : sound acc acc_toc look s V D (Car way 0)) by (apply sound_start with look; try assumption; lra).
    revert S0. generalize (Car way 0). induction F as [|i is Hi F IH]; intros c S0; [exact S0|]. cbn [fold_left]. apply IH, sound_cycle; try assumption; lra.
  Qed.

  (** The robot never comes further behind the stop than this, whatever the lengths of the cycles, the velocities and
      curvatures of the path are, and in whatever order it follows, turns and stops. *)
  Theorem C90_brakes_in_time way is : 0 <= way -> Forall (allowed V D) is ->
    - (V * D / 2 + acc_toc * D * D / 8 + look * acc * D) <= left (approach acc acc_toc look vel_w limit s way is).
  Proof. intros Hway F. apply (sound_approach way is Hway F). Qed.

  (** Braking is possible at every moment: with the remaining way, the speed towards the stop is one from which the robot
      comes to rest soon behind it at the latest when braking with acc_toc. *)
  Theorem C90_speed_is_braked way is : 0 <= way -> Forall (allowed V D) is ->
    let c := approach acc acc_toc look vel_w limit s way is in
    0 < s * speed c -> (s * speed c) * (s * speed c) / (2 * acc_toc) <= left c + V * D / 2 + look * acc * D.
  Proof. intros Hway F. cbv zeta. apply (sound_braked acc acc_toc look s V D); try assumption; try lra. apply sound_approach; assumption. Qed.

  (** And it does not back off further than where it started, or than it might overrun the stop from the other side. *)
  Theorem C90_does_not_back_off way is : 0 <= way -> Forall (allowed V D) is ->
    left (approach acc acc_toc look vel_w limit s way is) <= Rmax way (V * D / 2 + acc_toc * D * D / 8 + look * acc * D).
  Proof.
    intros Hway F. apply (back_bound acc acc_toc look s V D way). unfold approach.
    assert (B0 : back acc acc_toc look s V D way (Car way 0)) by (left; cbn [left speed]; lra).
    revert B0. generalize (Car way 0). induction F as [|i is Hi F IH]; intros c B0; [exact B0|]. cbn [fold_left]. apply IH, back_cycle; try assumption; lra.
  Qed.
End Stops.

(** Progress: the robot arrives. *)
Lemma toc_towards s r a : s = 1 \/ s = -1 -> 0 < r -> 0 < a -> s * toc (- r * s) a = sqrt (2 * a * r).
Proof.
  intros Hs Hr Ha. assert (P : 0 < 2 * a * r) by (apply Rmult_lt_0_compat; lra). unfold toc. destruct Hs as [-> | ->].
  - destruct (Rlt_dec (- r * 1) 0); [|lra]. replace (2 * (- r * 1) * a) with (- (2 * a * r)) by ring. rewrite Rabs_Ropp, Rabs_pos_eq by lra. ring.
  - destruct (Rlt_dec (- r * -1) 0); [lra|]. replace (2 * (- r * -1) * a) with (2 * a * r) by ring. rewrite Rabs_pos_eq by lra. ring.
Qed.
Lemma set_low p v vel acc dt m : 0 <= dt * acc -> m <= p + dt * acc -> m <= v -> m <= vel -> 0 <= m -> m <= set_r p v vel acc dt.
Proof.
  intros H0 H1 H2 H3 H4. assert (C : m <= clip_r v vel) by (unfold clip_r; destruct (Rlt_dec vel v); [lra|]; destruct (Rlt_dec v (- vel)); lra).
  unfold set_r. destruct (Rlt_dec _ _); [lra|]. destruct (Rlt_dec _ _); lra.
Qed.
Lemma set_towards s p v vel acc dt : s = 1 \/ s = -1 -> 0 <= vel -> 0 <= dt * acc -> s * set_r p v vel acc dt = set_r (s * p) (s * v) vel acc dt.
Proof.
  intros [-> | ->] H1 H2; [rewrite !Rmult_1_l; reflexivity|].
  replace (-1 * p) with (- p) by ring. replace (-1 * v) with (- v) by ring. rewrite set_odd by assumption. ring.
Qed.

(** Steps with at least a certain pace lead to the stop. *)
Lemma descent {St I : Type} (f : St -> I -> St) (pos spd : St -> R) (dt : I -> R) (rem : St -> I -> R) (inv : St -> Prop) (ok : I -> Prop) (pace d0 tol : R) :
  0 < pace -> 0 < d0 -> 0 < tol ->
  (forall c i, ok i -> inv c -> inv (f c i)) -> (forall c i, pos (f c i) = pos c - spd c * dt i) -> (forall i, ok i -> d0 <= dt i) ->
  (forall c i, ok i -> inv c -> 0 <= spd c -> tol <= rem c i -> pace <= spd (f c i) /\ tol <= pos (f c i)) ->
  forall c, inv c -> 0 <= spd c ->
  exists N, forall is, (N <= length is)%nat -> Forall ok is ->
    exists is1 i is2, is = is1 ++ i :: is2 /\ rem (fold_left f is1 c) i < tol.
Proof.
  intros P0 Hd0 Htol Hinv Hpos Hdt Hpace c0 I0 X0. set (q := pace * d0). assert (Q0 : 0 < q) by (apply Rmult_lt_0_compat; lra).
  assert (A : forall is c, Forall ok is -> inv c -> 0 <= spd c ->
    (exists is1 i is2, is = is1 ++ i :: is2 /\ rem (fold_left f is1 c) i < tol) \/
    (is = [] \/ (tol <= pos (fold_left f is c) /\ pos (fold_left f is c) <= pos c - spd c * d0 - q * (INR (length is) - 1)))).
  { induction is as [|i is IH]; intros c F V X; [right; left; reflexivity|]. apply Forall_cons_iff in F. destruct F as [Fi F].
    destruct (Rlt_le_dec (rem c i) tol) as [T|T]; [left; exists [], i, is; split; [reflexivity|exact T]|].
    destruct (Hpace c i Fi V X T) as [P1 P2]. pose proof (Hpos c i) as L1. pose proof (Hdt i Fi) as Fd.
    assert (X2 : spd c * d0 <= spd c * dt i) by (apply Rmult_le_compat_l; lra).
    destruct (IH (f c i) F (Hinv c i Fi V) ltac:(lra)) as [(is1 & j & is2 & E & T')|[E|(B2 & B3)]].
    - left. exists (i :: is1), j, is2. split; [rewrite E; reflexivity|]. exact T'.
    - right. right. subst is. cbn [fold_left length]. change (INR 1) with 1. lra.
    - right. right. cbn [fold_left length]. split; [exact B2|].
      assert (q <= spd (f c i) * d0) by (apply Rmult_le_compat_r; lra). rewrite S_INR. lra. }
  set (way := pos c0). destruct (archimed (Rabs way / q)) as [Z1 _]. set (z := up (Rabs way / q)) in *.
  assert (W : 0 <= Rabs way / q) by (apply Rmult_le_pos; [apply Rabs_pos|left; apply Rinv_0_lt_compat; lra]).
  assert (Zp : (0 <= z)%Z) by (apply le_IZR; lra).
  exists (S (Z.to_nat z)). intros is HN F.
  destruct (A is c0 F I0 X0) as [H|[H|(B2 & B3)]]; [exact H|subst is; cbn in HN; lia|exfalso]. fold way in B3.
  apply le_INR in HN. rewrite S_INR, INR_IZR_INZ, Z2Nat.id in HN by exact Zp.
  assert (Y : Rabs way < q * IZR z). { apply Rmult_lt_compat_l with (r := q) in Z1; [|exact Q0]. replace (q * (Rabs way / q)) with (Rabs way) in Z1 by (field; lra). lra. }
  assert (Y2 : q * IZR z <= q * (INR (length is) - 1)) by (apply Rmult_le_compat_l; lra).
  assert (0 <= spd c0 * d0) by (apply Rmult_le_pos; lra). pose proof (Rle_abs way). lra.
Qed.

Section Arrive.
  Variables (acc acc_toc look vel_w : R) (limit : bool) (s : R).
  Hypothesis Hs : s = 1 \/ s = -1.
  Hypothesis Ha : 0 < acc_toc <= acc.
  Hypothesis Hl : 0 <= look.
  Hypothesis Hw : 0 < vel_w.
  Variables (v0 d0 K tol : R).
  Hypothesis Hv0 : 0 < v0.
  Hypothesis Hd0 : 0 < d0.
  Hypothesis HK : 0 < K.
  Hypothesis Htol : 0 < tol.
  (** A cycle of following the path, neither too slow nor too short, on a path that is not too bent. *)
  Definition follows (i : mode * R) : Prop := d0 <= snd i /\ match fst i with Follow vel curv => v0 <= vel /\ Rabs curv <= K | _ => False end.
  Definition pace : R := Rmin (Rmin (d0 * acc) v0) (Rmin (sqrt (2 * acc_toc * tol)) (vel_w / K)).
  Lemma pace_pos : 0 < pace.
  Proof.
    unfold pace. apply Rmin_glb_lt; apply Rmin_glb_lt; try lra.
    - apply Rmult_lt_0_compat; lra.
    - apply sqrt_lt_R0. apply Rmult_lt_0_compat; lra.
    - apply Rdiv_lt_0_compat; lra.
  Qed.
  Lemma pace_le : pace <= d0 * acc /\ pace <= v0 /\ pace <= sqrt (2 * acc_toc * tol) /\ pace <= vel_w / K.
  Proof.
    unfold pace. set (A := d0 * acc). set (B := sqrt _). set (C := vel_w / K).
    pose proof (Rmin_l (Rmin A v0) (Rmin B C)). pose proof (Rmin_r (Rmin A v0) (Rmin B C)).
    pose proof (Rmin_l A v0). pose proof (Rmin_r A v0). pose proof (Rmin_l B C). pose proof (Rmin_r B C). lra.
  Qed.
  Lemma keeps_pace way v vel curv dt : d0 <= dt -> v0 <= vel -> Rabs curv <= K -> 0 <= s * v -> tol <= way - s * (v * look) ->
    pace <= s * command acc acc_toc look vel_w limit s way v (Follow vel curv) dt.
  Proof.
    intros Hdt Hvel Hcurv Hv Hr. pose proof pace_pos as P0. destruct pace_le as (P1 & P2 & P3 & P4).
    assert (Da : d0 * acc <= dt * acc) by (apply Rmult_le_compat_r; lra).
    cbn [command]. set (r := way - s * (v * look)) in *. set (v1 := set_r v (toc (- r * s) acc_toc) vel acc dt).
    assert (Q : pace <= s * v1).
    { unfold v1. rewrite set_towards, toc_towards by lra. apply set_low; try lra.
      apply Rle_trans with (1 := P3). apply sqrt_le_1_alt. apply Rmult_le_compat_l; lra. }
    destruct (andb limit _) eqn:L; [|exact Q].
    apply andb_prop in L. destruct L as [_ L]. destruct (Rlt_dec vel_w (Rabs (Rabs v1 * curv))) as [L'|]; [|discriminate]. clear L.
    assert (N : curv <> 0). { intros ->. rewrite Rmult_0_r, Rabs_R0 in L'. lra. }
    assert (T : vel_w / K <= Rabs (vel_w / curv)).
    { unfold Rdiv. rewrite Rabs_mult, Rabs_inv, (Rabs_pos_eq vel_w) by lra. apply Rmult_le_compat_l; [lra|]. apply Rinv_le_contravar; [apply Rabs_pos_lt; exact N|exact Hcurv]. }
    rewrite set_towards by lra.
    assert (G : s * ((if Rlt_dec v1 0 then -1 else 1) * Rabs (vel_w / curv)) = Rabs (vel_w / curv)).
    { destruct Hs as [E|E]; rewrite E in Q |- *; destruct (Rlt_dec v1 0); lra. }
    rewrite G. apply set_low; lra.
  Qed.

  (** Within finitely many cycles of following the path, [N] at the most, the tracker finds the robot's predicted position
      within [tol] of the stop, or behind it. *)
  Theorem C90_arrives way : exists N, forall is, (N <= length is)%nat -> Forall follows is ->
    exists is1 i is2, is = is1 ++ i :: is2 /\
      let c := approach acc acc_toc look vel_w limit s way is1 in
      left c - s * speed c * snd i - s * (speed c * look) < tol.
  Proof.
    apply (descent (cycle acc acc_toc look vel_w limit s) left (fun c => s * speed c) snd
      (fun c i => left c - s * speed c * snd i - s * (speed c * look)) (fun _ => True) follows pace d0 tol); try assumption.
    - apply pace_pos.
    - auto.
    - reflexivity.
    - intros i Hi. apply Hi.
    - intros c [m dt] [F1 F2] _ X T. cbn [fst snd] in *. split.
      + destruct m as [|vel curv|]; try contradiction. unfold cycle. cbn [speed fst snd]. apply keeps_pace; tauto.
      + unfold cycle. cbn [left fst snd]. assert (0 <= s * speed c * look) by (apply Rmult_le_pos; lra). lra.
    - exact I.
    - cbn [speed]. lra.
  Qed.
End Arrive.

(** A metre before a stop: the robot picks up speed as fast as it may, and the theorems bound how far it can come. *)
Example C90_case : let is := repeat (Follow (1/2) 0, 1/10) 3 in
  0 < 9/10 <= 1 /\ Forall (allowed (1/2) (1/10)) is /\
  speed (approach 1 (9/10) 0 1 true 1 1 [(Follow (1/2) 0, 1/10)]) = 1/10 /\
  speed (approach 1 (9/10) 0 1 true (-1) 1 [(Follow (1/2) 0, 1/10)]) = - (1/10) /\
  - (1/2 * (1/10) / 2 + 9/10 * (1/10) * (1/10) / 8 + 0 * 1 * (1/10)) <= left (approach 1 (9/10) 0 1 true 1 1 is).
Proof.
  cbv zeta.
  assert (F : Forall (allowed (1/2) (1/10)) (repeat (Follow (1/2) 0, 1/10) 3)) by (repeat constructor; cbn; lra).
  assert (S : 1/2 < sqrt (9/5)) by (rewrite <- (sqrt_square (1/2)) at 1 by lra; apply sqrt_lt_1; lra).
  split; [lra|]. split; [exact F|]. split; [|split].
  3: apply C90_brakes_in_time; try assumption; try lra; left; reflexivity.
  - unfold approach, cycle, command. cbn [fold_left fst snd left speed]. cbv zeta. unfold toc.
    replace (2 * (- (1 - 1 * 0 * (1/10) - 1 * (0 * 0)) * 1) * (9/10)) with (- (9/5)) by lra. rewrite Rabs_Ropp, (Rabs_pos_eq (9/5)) by lra.
    destruct (Rlt_dec (- (1 - 1 * 0 * (1/10) - 1 * (0 * 0)) * 1) 0) as [_|N]; [|exfalso; lra].
    assert (E : set_r 0 (- (-1) * sqrt (9/5)) (1/2) 1 (1/10) = 1/10).
    { unfold set_r, clip_r. destruct (Rlt_dec (1/2) _); [|exfalso; lra]. destruct (Rlt_dec _ (1/2)); lra. }
    rewrite E, Rmult_0_r, Rabs_R0. destruct (Rlt_dec 1 0); [exfalso; lra|reflexivity].
  - unfold approach, cycle, command. cbn [fold_left fst snd left speed]. cbv zeta. unfold toc.
    replace (2 * (- (1 - -1 * 0 * (1/10) - -1 * (0 * 0)) * -1) * (9/10)) with (9/5) by lra. rewrite (Rabs_pos_eq (9/5)) by lra.
    destruct (Rlt_dec (- (1 - -1 * 0 * (1/10) - -1 * (0 * 0)) * -1) 0) as [N|_]; [exfalso; lra|].
    assert (E : set_r 0 (- (1) * sqrt (9/5)) (1/2) 1 (1/10) = - (1/10)).
    { unfold set_r, clip_r. destruct (Rlt_dec (1/2) _); [exfalso; lra|]. destruct (Rlt_dec _ (- (1/2))); [|exfalso; lra].
      destruct (Rlt_dec _ (- (1/2))); [exfalso; lra|]. destruct (Rlt_dec (- (1/2)) _); lra. }
    rewrite E, Rmult_0_r, Rabs_R0. destruct (Rlt_dec 1 0); [exfalso; lra|reflexivity].
Qed.

(** A stop 5 m ahead is reached with 0.5 m/s and 10 cycles per second; the default prediction is 0.5 s. *)
Example C90_arrives_case : exists N, forall n, (N <= n)%nat ->
  exists is1 i is2, repeat (Follow (1/2) 0, 1/10) n = is1 ++ i :: is2 /\
    let c := approach 1 (9/10) (1/2) 1 true 1 5 is1 in left c - 1 * speed c * snd i - 1 * (speed c * (1/2)) < 1/100.
Proof.
  destruct (C90_arrives 1 (9/10) (1/2) 1 true 1 ltac:(auto) ltac:(lra) ltac:(lra) ltac:(lra) (1/2) (1/10) 1 (1/100) ltac:(lra) ltac:(lra) ltac:(lra) ltac:(lra) 5) as [N H].
  exists N. intros n Hn. apply H; [rewrite repeat_length; exact Hn|]. apply Forall_forall. intros x Hx. apply repeat_spec in Hx. subst x.
  unfold follows. cbn [fst snd]. rewrite Rabs_R0. lra.
Qed.

(** Finding: the command does not account for the length of a cycle, so that the robot passes the stop, and by as much as
    [V * D / 2]: it is told to go on with sqrt (2 acc_toc way) for a whole cycle. *)
Theorem C90_never_passes_the_stop_refuted : exists is, Forall (allowed 1 1) is /\ left (approach 1 1 0 1 true 1 (1/2) is) = - (1/2).
Proof.
  exists [(Follow 1 0, 1); (Clear, 1)]. split; [repeat constructor; cbn; lra|].
  unfold approach, cycle, command. cbn [fold_left fst snd left speed]. cbv zeta. unfold toc.
  replace (2 * (- (1/2 - 1 * 0 * 1 - 1 * (0 * 0)) * 1) * 1) with (- (1 * 1)) by lra. rewrite Rabs_Ropp, (Rabs_pos_eq (1 * 1)) by lra.
  rewrite sqrt_square by lra.
  destruct (Rlt_dec (- (1/2 - 1 * 0 * 1 - 1 * (0 * 0)) * 1) 0) as [_|N]; [|exfalso; lra].
  assert (E : set_r 0 (- (-1) * 1) 1 1 1 = 1).
  { unfold set_r, clip_r. destruct (Rlt_dec 1 _); [exfalso; lra|]. destruct (Rlt_dec _ (- (1))); [exfalso; lra|].
    destruct (Rlt_dec _ _); [exfalso; lra|]. destruct (Rlt_dec _ _); lra. }
  rewrite E, (Rmult_0_r (Rabs 1)), Rabs_R0. destruct (Rlt_dec 1 0); [exfalso; lra|]. cbn [andb]. lra.
Qed.

(** ** C91 *)
(** A turn is an approach in which the look-ahead depends on the length of the cycle. *)
Definition car_of (s : R) (c : turner) : car := Car (- s * angle c) (rate c).
Lemma turn_cycle_eq acc a gain vel s c b dt : s = 1 \/ s = -1 -> wrapped (angle c + rate c * dt) = angle c + rate c * dt ->
  car_of s (turn_cycle acc a gain vel c (b, dt)) =
  cycle acc a (gain * dt) 0 false s (car_of s c) ((if b then Clear else Follow vel 0), dt).
Proof.
  intros Hs Hn. destruct c as [th w]. cbn [angle rate] in Hn. unfold car_of, turn_cycle, cycle. cbn [angle rate left speed fst snd]. rewrite Hn. f_equal; [ring|].
  destruct b; cbn [command andb]; [reflexivity|]. f_equal. f_equal. destruct Hs as [-> | ->]; ring.
Qed.
Lemma wrapped_small x : - PI < x < PI -> wrapped x = x.
Proof.
  intros H. unfold wrapped. pose proof PI_RGT_0 as P0. assert (E : Int_part ((x + PI) / (2 * PI)) = 0%Z).
  { set (y := (x + PI) / (2 * PI)). assert (X : 0 <= y < 1).
    { unfold y, Rdiv. split; [apply Rmult_le_pos; [lra|]; left; apply Rinv_0_lt_compat; lra|].
      apply Rmult_lt_reg_r with (2 * PI); [lra|]. rewrite Rmult_assoc, Rinv_l by lra. lra. }
    destruct (base_Int_part y) as [B1 B2]. assert (L1 : (Int_part y < 1)%Z) by (apply lt_IZR; lra). assert (L2 : (-1 < Int_part y)%Z) by (apply lt_IZR; lra). lia. }
  rewrite E. ring.
Qed.

Section Turn.
  Variables (acc acc_toc gain vel D : R).
  Hypothesis Ha : 0 < acc_toc <= acc.
  Hypothesis Hg : 0 <= gain.
  Hypothesis HV : 0 <= vel.
  Hypothesis HD : 0 <= D.
  Notation turn := (turn acc acc_toc gain vel).
  (** How far the robot may turn past the wanted heading. *)
  Notation past := (vel * D / 2 + acc_toc * D * D / 8 + gain * D * acc * D).
  Hypothesis Hp : past < PI.
  Definition turns (s th : R) (c : turner) : Prop :=
    sound acc acc_toc (gain * D) s vel D (car_of s c) /\ back acc acc_toc (gain * D) s vel D (- s * th) (car_of s c).
  Lemma turns_cycle s th c b dt : s = 1 \/ s = -1 -> - s * th < PI -> 0 <= dt <= D -> turns s th c ->
    wrapped (angle c + rate c * dt) = angle c + rate c * dt /\ turns s th (turn_cycle acc acc_toc gain vel c (b, dt)).
  Proof.
    intros Hs Hpi Hi [S0 B0].
    assert (Hd : 0 <= gain * dt <= gain * D) by (split; [apply Rmult_le_pos; lra|apply Rmult_le_compat_l; lra]).
    assert (A : allowed vel D ((if b then Clear else Follow vel 0), dt)) by (split; [exact Hi|]; destruct b; cbn; lra).
    assert (S1 := sound_cycle acc acc_toc (gain * dt) (gain * D) 0 false s vel D Hs Ha Hd (Rle_refl 0) HV HD _ _ A S0).
    assert (B1 := back_cycle acc acc_toc (gain * dt) (gain * D) 0 false s vel D (- s * th) Hs Ha Hd (Rle_refl 0) HV HD _ _ A B0).
    assert (N : wrapped (angle c + rate c * dt) = angle c + rate c * dt).
    { apply wrapped_small. pose proof (back_bound _ _ _ _ _ _ _ _ B1) as U. destruct S1 as [S1 _].
      unfold cycle, car_of, overrun in U, S1. cbn [left speed fst snd] in U, S1.
      assert (Rmax (- s * th) past < PI) by (apply Rmax_lub_lt; assumption). destruct Hs as [-> | ->]; lra. }
    split; [exact N|]. split; rewrite turn_cycle_eq by assumption; assumption.
  Qed.
  Lemma turns_start s th : 0 <= - s * th -> turns s th (Turner th 0).
  Proof.
    intros Hth. assert (GD : 0 <= gain * D) by (apply Rmult_le_pos; lra).
    split; [apply sound_start with 0; try assumption; lra|left; unfold car_of; cbn [left speed angle rate]; lra].
  Qed.
  Lemma sound_turn s th is : s = 1 \/ s = -1 -> 0 <= - s * th -> - s * th < PI -> Forall (fun i => 0 <= snd i <= D) is -> turns s th (turn th is).
  Proof.
    intros Hs Hth Hpi F. unfold Braking.turn. pose proof (turns_start s th Hth) as S0.
    revert S0. generalize (Turner th 0). induction F as [|[b dt] is Hi F IH]; intros c S0; [exact S0|]. cbn [fold_left]. cbn [snd] in Hi.
    apply IH, turns_cycle; assumption.
  Qed.

  (** The robot turns past the wanted heading by no more than this, and it takes the shorter way: in the other direction it
      does not turn further than where it started, or than it might turn too far coming back. *)
  Theorem C91_turn_stops_in_time th is : - PI < th < PI -> Forall (fun i => 0 <= snd i <= D) is ->
    (0 <= th -> - past <= angle (turn th is) <= Rmax th past) /\
    (th <= 0 -> - Rmax (- th) past <= angle (turn th is) <= past).
  Proof.
    intros Hpi F. split; intros Hth.
    - destruct (sound_turn (-1) th is) as [(S & _ & _) B]; try assumption; [auto|lra|lra|]. apply back_bound in B.
      unfold overrun, car_of in S, B. cbn [left] in S, B. replace (- -1 * th) with th in B by ring. lra.
    - destruct (sound_turn 1 th is) as [(S & _ & _) B]; try assumption; [auto|lra|lra|]. apply back_bound in B.
      unfold overrun, car_of in S, B. cbn [left] in S, B. replace (- (1) * th) with (- th) in B by ring. lra.
  Qed.
  (** At every moment the turn can still be stopped: with deceleration acc_toc it ends soon behind the wanted heading at
      the latest. *)
  Theorem C91_rate_is_braked th is : - PI < th < PI -> Forall (fun i => 0 <= snd i <= D) is ->
    let c := turn th is in
    let soon := vel * D / 2 + gain * D * acc * D in
    (0 <= th -> rate c < 0 -> - soon <= angle c - rate c * rate c / (2 * acc_toc)) /\
    (th <= 0 -> 0 < rate c -> angle c + rate c * rate c / (2 * acc_toc) <= soon).
  Proof.
    intros Hpi F. cbv zeta. split; intros Hth Hr.
    - assert (S : sound acc acc_toc (gain * D) (-1) vel D (car_of (-1) (turn th is))) by (apply sound_turn; [auto|lra|lra|assumption]).
      apply sound_braked in S; try assumption; unfold car_of in *; cbn [left speed] in *; [|lra].
      replace (-1 * rate (turn th is) * (-1 * rate (turn th is))) with (rate (turn th is) * rate (turn th is)) in S by ring. lra.
    - assert (S : sound acc acc_toc (gain * D) 1 vel D (car_of 1 (turn th is))) by (apply sound_turn; [auto|lra|lra|assumption]).
      apply sound_braked in S; try assumption; unfold car_of in *; cbn [left speed] in *; [|lra].
      replace (1 * rate (turn th is) * (1 * rate (turn th is))) with (rate (turn th is) * rate (turn th is)) in S by ring. lra.
  Qed.

  (** Within finitely many cycles of a turn, [N] at the most, the heading the tracker expects is within [tol] of the wanted
      one, or past it. *)
  Theorem C91_arrives th d0 tol : - PI < th < PI -> 0 < vel -> 0 < d0 -> 0 < tol ->
    exists N, forall is, (N <= length is)%nat -> Forall (fun i => fst i = false /\ d0 <= snd i <= D) is ->
      exists is1 i is2, is = is1 ++ i :: is2 /\
        let c := turn th is1 in
        let expected := angle c + rate c * snd i + rate c * snd i * gain in
        (0 <= th -> expected < tol) /\ (th <= 0 -> - tol < expected).
  Proof.
    intros Hpi Hv Hd0 Htol.
    assert (G : forall s, s = 1 \/ s = -1 -> 0 <= - s * th -> exists N, forall is, (N <= length is)%nat -> Forall (fun i => fst i = false /\ d0 <= snd i <= D) is ->
      exists is1 i is2, is = is1 ++ i :: is2 /\ - s * (angle (turn th is1) + rate (turn th is1) * snd i + rate (turn th is1) * snd i * gain) < tol).
    { intros s Hs Hth. assert (Hpi2 : - s * th < PI) by (destruct Hs as [-> | ->]; lra).
      set (m := pace acc acc_toc 1 vel d0 1 tol).
      apply (descent (turn_cycle acc acc_toc gain vel) (fun c => - s * angle c) (fun c => s * rate c) snd
        (fun c i => - s * (angle c + rate c * snd i + rate c * snd i * gain)) (turns s th) (fun i => fst i = false /\ d0 <= snd i <= D) m d0 tol); try assumption.
      - apply pace_pos; lra.
      - intros c [b dt] [_ Hi] T. cbn [snd] in Hi. apply turns_cycle; try assumption. lra.
      - intros c [b dt]. cbn [turn_cycle angle snd]. ring.
      - intros i Hi. apply Hi.
      - intros c [b dt] [Hb Hi] T X R. cbn [fst snd] in *. subst b.
        destruct (turns_cycle s th c false dt Hs Hpi2 ltac:(lra) T) as [N _].
        assert (0 <= s * rate c * (dt * gain)) by (apply Rmult_le_pos; [lra|apply Rmult_le_pos; lra]).
        assert (0 <= gain * dt) by (apply Rmult_le_pos; lra).
        split; [|cbn [turn_cycle angle]; lra].
        pose proof (turn_cycle_eq acc acc_toc gain vel s c false dt Hs N) as E. apply (f_equal speed) in E. unfold car_of in E at 1. cbn [speed] in E. rewrite E.
        unfold cycle, car_of. cbn [speed left fst snd].
        assert (E2 : forall w v, command acc acc_toc (gain * dt) 0 false s w v (Follow vel 0) dt = command acc acc_toc (gain * dt) 1 false s w v (Follow vel 0) dt) by reflexivity.
        rewrite E2. apply keeps_pace; try assumption; try lra. rewrite Rabs_R0. lra.
      - apply turns_start; assumption.
      - cbn [rate]. lra. }
    destruct (Rle_lt_dec 0 th) as [Z|Z].
    - destruct (Req_dec th 0) as [Z0|Z0].
      + (* there at once *)
        exists 1%nat. intros [|i is] HN _; [cbn in HN; lia|]. exists [], i, is. split; [reflexivity|]. unfold Braking.turn. cbn [fold_left angle rate]. lra.
      + destruct (G (-1) ltac:(auto) ltac:(lra)) as [N HN]. exists N. intros is H1 H2. destruct (HN is H1 H2) as (is1 & i & is2 & E & T).
        exists is1, i, is2. split; [exact E|]. cbv zeta. lra.
    - destruct (G 1 ltac:(auto) ltac:(lra)) as [N HN]. exists N. intros is H1 H2. destruct (HN is H1 H2) as (is1 & i & is2 & E & T).
      exists is1, i, is2. split; [exact E|]. cbv zeta. lra.
  Qed.
End Turn.

(** A turn by 3/2 rad to the right with the default look-ahead gain. *)
Example C91_case : let is := repeat (false, 1/10) 3 in
  0 < 9/10 <= 1 /\ Forall (fun i => 0 <= snd i <= 1/10) is /\
  rate (turn 1 (9/10) (3/2) (1/2) (3/2) [(false, 1/10)]) = - (1/10) /\
  - (1/2 * (1/10) / 2 + 9/10 * (1/10) * (1/10) / 8 + 3/2 * (1/10) * 1 * (1/10)) <= angle (turn 1 (9/10) (3/2) (1/2) (3/2) is).
Proof.
  cbv zeta. assert (F : Forall (fun i : bool * R => 0 <= snd i <= 1/10) (repeat (false, 1/10) 3)) by (repeat constructor; cbn; lra).
  assert (S : 1/2 < sqrt (27/10)) by (rewrite <- (sqrt_square (1/2)) at 1 by lra; apply sqrt_lt_1; lra). pose proof PI2_1 as P.
  split; [lra|]. split; [exact F|]. split.
  2: apply C91_turn_stops_in_time; try assumption; lra.
  unfold turn, turn_cycle. cbn [fold_left angle rate]. rewrite (wrapped_small (3/2 + 0 * (1/10))) by lra. unfold toc.
  replace (2 * (3/2 + 0 * (1/10) + 0 * (1/10) * (3/2)) * (9/10)) with (27/10) by lra. rewrite (Rabs_pos_eq (27/10)) by lra.
  destruct (Rlt_dec (3/2 + 0 * (1/10) + 0 * (1/10) * (3/2)) 0) as [N|_]; [exfalso; lra|].
  unfold set_r, clip_r. destruct (Rlt_dec (1/2) _); [exfalso; lra|]. destruct (Rlt_dec _ (- (1/2))); [|exfalso; lra].
  destruct (Rlt_dec _ (- (1/2))); [exfalso; lra|]. destruct (Rlt_dec (- (1/2)) _); lra.
Qed.

Example C91_arrives_case : exists N, forall n, (N <= n)%nat ->
  exists is1 i is2, repeat (false, 1/10) n = is1 ++ i :: is2 /\
    let c := turn 1 (9/10) (3/2) (1/2) (3/2) is1 in angle c + rate c * snd i + rate c * snd i * (3/2) < 1/100.
Proof.
  pose proof PI2_1 as P.
  destruct (C91_arrives 1 (9/10) (3/2) (1/2) (1/10) ltac:(lra) ltac:(lra) ltac:(lra) ltac:(lra) ltac:(lra) (3/2) (1/10) (1/100) ltac:(lra) ltac:(lra) ltac:(lra) ltac:(lra)) as [N H].
  exists N. intros n Hn. destruct (H (repeat (false, 1/10) n)) as (is1 & i & is2 & E & T & _).
  - rewrite repeat_length. exact Hn.
  - apply Forall_forall. intros x Hx. apply repeat_spec in Hx. subst x. cbn [fst snd]. split; [reflexivity|lra].
  - exists is1, i, is2. split; [exact E|]. cbv zeta. apply T. lra.
Qed.

(** Finding: the look-ahead does not prevent turning too far: the first command of a turn, given at rest, looks no cycle
    ahead. *)
Theorem C91_never_turns_too_far_refuted : exists is, Forall (fun i => 0 <= snd i <= 1) is /\ angle (turn 1 1 (3/2) 1 (- (1/2)) is) = 1/2.
Proof.
  exists [(false, 1); (true, 1)]. split; [repeat constructor; cbn; lra|]. pose proof PI2_1 as P.
  unfold turn, turn_cycle. cbn [fold_left angle rate]. rewrite (wrapped_small (- (1/2) + 0 * 1)) by lra. unfold toc.
  replace (2 * (- (1/2) + 0 * 1 + 0 * 1 * (3/2)) * 1) with (- (1 * 1)) by lra. rewrite Rabs_Ropp, (Rabs_pos_eq (1 * 1)) by lra.
  rewrite sqrt_square by lra. destruct (Rlt_dec (- (1/2) + 0 * 1 + 0 * 1 * (3/2)) 0) as [_|N]; [|exfalso; lra].
  assert (E : set_r 0 (- (-1) * 1) 1 1 1 = 1).
  { unfold set_r, clip_r. destruct (Rlt_dec 1 _); [exfalso; lra|]. destruct (Rlt_dec _ (- (1))); [exfalso; lra|].
    destruct (Rlt_dec _ _); [exfalso; lra|]. destruct (Rlt_dec _ _); lra. }
  rewrite E. lra.
Qed.

Print Assumptions C90_brakes_in_time.
Print Assumptions C90_speed_is_braked.
Print Assumptions C90_does_not_back_off.
Print Assumptions C90_arrives.
Print Assumptions C90_never_passes_the_stop_refuted.
Print Assumptions C91_turn_stops_in_time.
Print Assumptions C91_rate_is_braked.
Print Assumptions C91_arrives.
Print Assumptions C91_never_turns_too_far_refuted.
