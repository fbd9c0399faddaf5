(** Properties C39 (path import), C40 (local goals) and C53 (arrival times). *)
From Coq Require Import Reals Lra ZifyNat.
From Verif Require Import Common Path2D.
Local Open Scope R_scope.

(** *** Specification for C39. *)
Section ImportSpec.
  Variable eps : R.
  (** At one place: nearer than epsilon. *)
  Definition near (a b : pose2) : Prop := sq a b < eps * eps.
  (** What one stop on the route becomes: its first pose, and if the robot turned
      there, the first position with the last heading and velocity. *)
  Definition stop_poses (a : pose2) (ms : list pose2) : list pose2 :=
    match ms with
    | [] => [a]
    | _ => [a; mkP2 (p_x a) (p_y a) (p_yaw (last ms a)) (p_vel (last ms a))]
    end.
  (** [imported l out]: [l] splits into stops, each pose of a stop being near the first
      one and the next stop being away from it; [out] lists the stops. *)
  Inductive imported : list pose2 -> list pose2 -> Prop :=
  | imp_nil : imported [] []
  | imp_stop a ms rest out :
      (forall m, In m ms -> near a m) ->
      (forall b rest', rest = b :: rest' -> ~ near a b) ->
      imported rest out ->
      imported (a :: ms ++ rest) (stop_poses a ms ++ out).
End ImportSpec.

(** *** C39 proofs. *)
Section Import.
  Variable eps : R.

  Lemma near_le (a b : pose2) : ~ near eps a b <-> eps * eps <= sq a b.
  Proof. unfold near. lra. Qed.

  Lemma last_snoc {A} (l : list A) x d : last (l ++ [x]) d = x.
  Proof. apply last_last. Qed.

  (** One stop: starting with leader [a] as the last pose and members [ms] seen. *)
  Definition pending (a : pose2) (ms : list pose2) : option pose2 :=
    match ms with [] => None | _ => Some (mkP2 (p_x a) (p_y a) (p_yaw (last ms a)) (p_vel (last ms a))) end.

  Lemma pending_stop a ms : [a] ++ match pending a ms with Some e => [e] | None => [] end = stop_poses a ms.
  Proof. destruct ms; reflexivity. Qed.

  Lemma import_from l : forall out a ms, (forall m, In m ms -> near eps a m) ->
    exists ms' rest out', l = ms' ++ rest /\ (forall m, In m (ms ++ ms') -> near eps a m) /\
      (forall b rest', rest = b :: rest' -> ~ near eps a b) /\ imported eps rest out' /\
      (let '(o, t) := fold_left (fm_step eps) l (out ++ [a], pending a ms) in
       o ++ match t with Some e => [e] | None => [] end) = out ++ stop_poses a (ms ++ ms') ++ out'.
  Proof.
    induction l as [|p l IH]; intros out a ms Hms.
    - exists [], [], []. rewrite !app_nil_r. repeat split; auto; [discriminate|constructor|].
      cbn [fold_left]. rewrite <- app_assoc, pending_stop. reflexivity.
    - cbn [fold_left]. unfold fm_step at 2. rewrite rev_app_distr. cbn [rev app].
      destruct (Rle_dec (eps * eps) (sq a p)) as [Hfar|Hnear].
      + destruct (IH (out ++ stop_poses a ms) p [] ltac:(intros ? [])) as (ms' & rest & out' & -> & H1 & H2 & H3 & H4).
        exists [], (p :: ms' ++ rest), (stop_poses p ms' ++ out'). rewrite app_nil_r. cbn [app].
        repeat split; auto.
        * intros b r E. injection E as -> _. apply near_le. exact Hfar.
        * constructor; assumption.
        * replace ((out ++ [a]) ++ match pending a ms with Some e => [e] | None => [] end ++ [p])
            with ((out ++ stop_poses a ms) ++ [p]).
          2:{ rewrite <- pending_stop, <- !app_assoc. reflexivity. }
          cbn [pending app] in H4. rewrite H4, <- app_assoc. reflexivity.
      + assert (near eps a p) as Hn by (unfold near; lra).
        destruct (IH out a (ms ++ [p])) as (ms' & rest & out' & -> & H1 & H2 & H3 & H4).
        { intros m Hm. apply in_app_or in Hm as [Hm|[<-|[]]]; auto. }
        exists (p :: ms'), rest, out'. rewrite <- app_assoc in H1, H4. repeat split; auto.
        assert (E : Some (mkP2 (p_x a) (p_y a) (p_yaw p) (p_vel p)) = pending a (ms ++ [p])).
        { unfold pending. rewrite last_snoc. destruct ms; reflexivity. }
        rewrite E. exact H4.
  Qed.

  (** C39: for every message and epsilon the imported path is the list of stops. *)
  Theorem C39_import_lists_the_stops l : imported eps l (fromMsg eps l).
  Proof.
    destruct l as [|a l]; [constructor|].
    destruct (import_from l [] a [] ltac:(intros ? [])) as (ms & rest & out & -> & H1 & H2 & H3 & H4).
    cbn [app] in *. unfold fromMsg. cbn [fold_left fm_step rev]. cbn [pending] in H4.
    rewrite H4. constructor; assumption.
  Qed.

  Lemma imported_head l out : imported eps l out -> hd_error out = hd_error l.
  Proof. destruct 1 as [|a ms rest out]; [reflexivity|]. destruct ms; reflexivity. Qed.

  Lemma imported_last l out d : imported eps l out ->
    p_yaw (last out d) = p_yaw (last l d) /\ p_vel (last out d) = p_vel (last l d).
  Proof.
    induction 1 as [|a ms rest out H1 H2 H3 IH]; [auto|].
    assert (L : forall A (x y : list A) dd, y <> [] -> last (x ++ y) dd = last y dd).
    { intros A x y dd Hy. destruct (exists_last Hy) as (y' & z & ->). rewrite app_assoc, !last_last. reflexivity. }
    destruct rest as [|b rest].
    - inversion H3; subst. rewrite !app_nil_r. destruct ms as [|m ms]; [auto|].
      cbn [stop_poses]. change (a :: m :: ms) with ([a] ++ (m :: ms)). rewrite (L _ [a]) by discriminate.
      cbn [last p_yaw p_vel].
      assert (forall x y, last (m :: ms) x = last (m :: ms) y) as E.
      { intros x y. destruct (exists_last (l := m :: ms)) as (y' & z & ->); [discriminate|]. rewrite !last_last. reflexivity. }
      change (match ms with [] => m | _ :: _ => last ms a end) with (last (m :: ms) a).
      change (match ms with [] => m | _ :: _ => last ms d end) with (last (m :: ms) d).
      rewrite (E a d). auto.
    - assert (out <> []) as Ho by (inversion H3; destruct ms0; discriminate).
      change (a :: ms ++ b :: rest) with ((a :: ms) ++ b :: rest).
      rewrite !L by (assumption || discriminate). exact IH.
  Qed.

  (** The first pose is kept; the final heading and velocity are those of the message. *)
  Theorem C39_keeps_start_and_final_heading l d :
    hd_error (fromMsg eps l) = hd_error l /\
    p_yaw (last (fromMsg eps l) d) = p_yaw (last l d) /\
    p_vel (last (fromMsg eps l) d) = p_vel (last l d).
  Proof.
    pose proof (C39_import_lists_the_stops l) as H. split; [apply imported_head; exact H|].
    apply imported_last. exact H.
  Qed.

  (** Never three consecutive poses at one place. *)
  Lemma near_sym a b : near eps a b -> near eps b a.
  Proof. unfold near, sq. intros H. replace (p_x b - p_x a) with (-(p_x a - p_x b)) by ring.
         replace (p_y b - p_y a) with (-(p_y a - p_y b)) by ring. lra. Qed.
  Lemma near_pos a a' b : p_x a = p_x a' -> p_y a = p_y a' -> near eps a b <-> near eps a' b.
  Proof. unfold near, sq. intros -> ->. tauto. Qed.

  Fixpoint no3 (l : list pose2) : Prop :=
    match l with
    | p :: ((q :: r :: _) as t) => ~ (near eps p q /\ near eps q r) /\ no3 t
    | _ => True
    end.
  Lemma no3_spec l1 : forall p q r l2, no3 (l1 ++ p :: q :: r :: l2) -> ~ (near eps p q /\ near eps q r).
  Proof.
    induction l1 as [|a l1 IH]; intros p q r l2 H; [apply H|].
    apply (IH p q r l2). destruct l1 as [|b [|c l1]]; apply H.
  Qed.

  Lemma imported_no3 l out : imported eps l out -> no3 out.
  Proof.
    induction 1 as [|a ms rest out H1 H2 H3 IH]; [exact I|].
    destruct rest as [|b rest].
    - inversion H3; subst. rewrite app_nil_r. destruct ms; exact I.
    - specialize (H2 b rest eq_refl). pose proof (imported_head _ _ H3) as Hh.
      destruct out as [|b' out]; [discriminate|]. injection Hh as ->.
      destruct ms as [|m ms]; cbn [stop_poses app].
      + destruct out as [|c out]; [exact I|]. cbn [no3]. split; [tauto|exact IH].
      + set (a' := mkP2 _ _ _ _).
        assert (~ near eps a' b) as Hn by (intros Hn; apply H2; eapply (near_pos a a'); [reflexivity..|exact Hn]).
        split; [tauto|]. destruct out as [|c out]; [exact I|]. split; [tauto|exact IH].
  Qed.

  Theorem C39_no_three_poses_at_one_place l l1 p q r l2 :
    fromMsg eps l = l1 ++ p :: q :: r :: l2 -> ~ (near eps p q /\ near eps q r).
  Proof.
    intros E. pose proof (imported_no3 _ _ (C39_import_lists_the_stops l)) as H. rewrite E in H.
    eapply no3_spec. exact H.
  Qed.

  (** A message whose successive poses are all epsilon apart is imported unchanged. *)
  Fixpoint apart (l : list pose2) : Prop :=
    match l with p :: ((q :: _) as t) => ~ near eps p q /\ apart t | _ => True end.
  Lemma imported_det l out1 : imported eps l out1 -> forall out2, imported eps l out2 -> out1 = out2.
  Proof.
    induction 1 as [|a ms rest out H1 H2 H3 IH]; intros out2 Hi; inversion Hi as [|a' ms' rest' out' G1 G2 G3]; subst; auto.
    assert (ms' = ms /\ rest' = rest) as [-> ->].
    { match goal with H : _ ++ _ = _ ++ _ |- _ => rename H into HE end.
      clear - H1 H2 G1 G2 HE. revert ms' H1 G1 HE. induction ms as [|m ms IHm]; intros [|m' ms'] H1 G1 E; cbn [app] in E.
      - auto.
      - exfalso. apply (H2 m' (ms' ++ rest')); [congruence|]. apply G1. left; reflexivity.
      - exfalso. apply (G2 m (ms ++ rest)); [congruence|]. apply H1. left; reflexivity.
      - injection E as -> E. destruct (IHm ms') as [-> ->]; auto.
        + intros; apply H1; right; assumption.
        + intros; apply G1; right; assumption. }
    f_equal. apply IH. assumption.
  Qed.
  Lemma apart_imported l : apart l -> imported eps l l.
  Proof.
    induction l as [|a l IH]; intros H; [constructor|].
    change (a :: l) with (a :: [] ++ l). change (a :: [] ++ l) with (stop_poses a [] ++ l) at 2.
    constructor; [intros m []| |apply IH; destruct l; [exact I|apply H]].
    intros b r ->. apply H.
  Qed.
  Theorem C39_spaced_message_is_unchanged l : apart l -> fromMsg eps l = l.
  Proof. intros H. eapply imported_det; [apply C39_import_lists_the_stops|apply apart_imported; exact H]. Qed.

  (** Exporting and importing again changes nothing. *)
  Lemma near_self a a' : eps <> 0 -> p_x a = p_x a' -> p_y a = p_y a' -> near eps a a'.
  Proof.
    intros He Hx Hy. unfold near, sq. rewrite Hx, Hy.
    replace (_ + _) with 0 by ring. nra.
  Qed.
  Lemma imported_again l out : eps <> 0 -> imported eps l out -> imported eps out out.
  Proof.
    intros He. induction 1 as [|a ms rest out H1 H2 H3 IH]; [constructor|].
    assert (K : forall b r, out = b :: r -> ~ near eps a b).
    { intros b r ->. pose proof (imported_head _ _ H3) as Hh. destruct rest as [|c rest]; [discriminate|].
      injection Hh as ->. eapply H2; reflexivity. }
    destruct ms as [|m ms].
    - change (stop_poses a [] ++ out) with (a :: [] ++ out) at 1. constructor; auto; try (intros ? []).
    - set (a' := mkP2 (p_x a) (p_y a) (p_yaw (last (m :: ms) a)) (p_vel (last (m :: ms) a))).
      change (stop_poses a (m :: ms) ++ out) with (a :: [a'] ++ out) at 1.
      change (stop_poses a (m :: ms)) with (stop_poses a [a']). constructor; auto.
      intros x [<-|[]]. apply near_self; auto.
  Qed.
  Theorem C39_export_import_is_identity l : eps <> 0 ->
    fromMsg eps (toMsg (fromMsg eps l)) = fromMsg eps l.
  Proof.
    intros He. eapply imported_det; [apply C39_import_lists_the_stops|].
    eapply imported_again; [exact He|apply C39_import_lists_the_stops].
  Qed.

  (** The literal reading "every pose farther than epsilon from its predecessor in the
      message is kept" is false: distances are taken to the first pose of the stop, so a
      step across it is dropped. *)
  Theorem C39_keeps_every_long_step_refuted : 0 < eps ->
    exists a b c, eps * eps < sq b c /\ forall p, In p (fromMsg eps [a; b; c]) -> p_x p <> p_x c.
  Proof.
    intros He. exists (mkP2 0 0 0 None), (mkP2 (9/10 * eps) 0 0 None), (mkP2 (- (2/10) * eps) 0 1 None).
    split; [unfold sq; cbn; nra|].
    intros p Hp.
    assert (E : fromMsg eps [mkP2 0 0 0 None; mkP2 (9/10 * eps) 0 0 None; mkP2 (- (2/10) * eps) 0 1 None]
                = stop_poses (mkP2 0 0 0 None) [mkP2 (9/10 * eps) 0 0 None; mkP2 (- (2/10) * eps) 0 1 None] ++ []).
    { eapply imported_det; [apply C39_import_lists_the_stops|].
      change [mkP2 0 0 0 None; mkP2 (9/10 * eps) 0 0 None; mkP2 (- (2/10) * eps) 0 1 None]
        with (mkP2 0 0 0 None :: [mkP2 (9/10 * eps) 0 0 None; mkP2 (- (2/10) * eps) 0 1 None] ++ []) at 1.
      constructor; [|discriminate|constructor].
      intros m [<-|[<-|[]]]; unfold near, sq; cbn; nra. }
    rewrite E in Hp. cbn in Hp. destruct Hp as [<-|[<-|[]]]; cbn; nra.
  Qed.
End Import.

(** Non-vacuity: forward, turn in place through two headings, forward. *)
Example C39_example :
  fromMsg 1 [mkP2 0 0 0 None; mkP2 5 0 0 None; mkP2 5 0 1 None; mkP2 5 0 2 None; mkP2 5 9 2 None]
  = [mkP2 0 0 0 None; mkP2 5 0 0 None; mkP2 5 0 2 None; mkP2 5 9 2 None].
Proof.
  eapply imported_det; [apply C39_import_lists_the_stops|].
  apply (imp_stop 1 (mkP2 0 0 0 None) [] (mkP2 5 0 0 None :: mkP2 5 0 1 None :: mkP2 5 0 2 None :: [mkP2 5 9 2 None])
           (mkP2 5 0 0 None :: mkP2 5 0 2 None :: [mkP2 5 9 2 None])); [intros ? []| |].
  { intros b r E. injection E as <- _. unfold near, sq; cbn; lra. }
  apply (imp_stop 1 (mkP2 5 0 0 None) [mkP2 5 0 1 None; mkP2 5 0 2 None] [mkP2 5 9 2 None] [mkP2 5 9 2 None]).
  { intros m [<-|[<-|[]]]; unfold near, sq; cbn; lra. }
  { intros b r E. injection E as <- _. unfold near, sq; cbn; lra. }
  apply (imp_stop 1 (mkP2 5 9 2 None) [] [] []); [intros ? []|discriminate|constructor].
Qed.

(** *** Specification for C40. *)
Section LocalGoalSpec.
  Variables (l : list pose2) (epsilon : R).
  Definition pt (i : nat) : pose2 := nth i l (mkP2 0 0 0 None).
  (** The robot only turns between pose [i-1] and pose [i]. *)
  Definition turn_at (i : nat) : Prop := sq (pt i) (pt (i - 1)) < epsilon.
  (** Forward (positive) or backward (negative) travel along the segment ending in [i]. *)
  Definition travel (i : nat) : R :=
    (p_x (pt i) - p_x (pt (i - 1))) * cos (p_yaw (pt i)) + (p_y (pt i) - p_y (pt (i - 1))) * sin (p_yaw (pt i)).
  (** The direction of travel flips between segment [i-1] and segment [i]. *)
  Definition switch_at (i : nat) : Prop :=
    (2 <= i)%nat /\ ~ turn_at (i - 1) /\ ~ turn_at i /\ travel (i - 1) * travel i < 0.
End LocalGoalSpec.

Section LocalGoalProofs.
  Variables (l : list pose2) (sb tn : bool) (epsilon : R).
  Notation turn := (turn_at l epsilon).
  Notation switch := (switch_at l epsilon).
  Notation dir := (travel l).

  Definition stop (b i : nat) : Prop :=
    (tn = true /\ turn i) \/ (sb = true /\ (b + 2 <= i)%nat /\ switch i).

  Lemma at_ok i : (i < length l)%nat -> at_ l i = Ok (pt l i).
  Proof. intros H. unfold at_, pt. rewrite (nth_error_nth' l (mkP2 0 0 0 None) H). reflexivity. Qed.

  Lemma flg_loop_spec n : forall b it s, (b < it)%nat -> (it + n <= length l)%nat ->
    (sb = true -> s = 0 \/ ((b + 2 <= it)%nat /\ ~ turn (it - 1) /\ s = dir (it - 1))) ->
    (sb = true -> (b + 2 <= it)%nat -> ~ turn (it - 1) -> s = dir (it - 1)) ->
    exists r, flg_loop l sb tn epsilon n it (it - 1) s = Ok r /\
      match r with
      | None => forall i, (it <= i < it + n)%nat -> ~ stop b i
      | Some g => (it <= g < it + n)%nat /\ stop b g /\ forall i, (it <= i < g)%nat -> ~ stop b i
      end.
  Proof.
    induction n as [|n IH]; intros b it s Hb Hn Hs1 Hs2.
    - exists None. split; [reflexivity|]. intros i Hi. lia.
    - cbn [flg_loop]. rewrite !at_ok by lia. cbn [bind].
      assert (K : forall s', ~ stop b it ->
        (sb = true -> s' = 0 \/ ((b + 2 <= S it)%nat /\ ~ turn (S it - 1) /\ s' = dir (S it - 1))) ->
        (sb = true -> (b + 2 <= S it)%nat -> ~ turn (S it - 1) -> s' = dir (S it - 1)) ->
        exists r, flg_loop l sb tn epsilon n (S it) it s' = Ok r /\
        match r with
        | None => forall i, (it <= i < it + S n)%nat -> ~ stop b i
        | Some g => (it <= g < it + S n)%nat /\ stop b g /\ forall i, (it <= i < g)%nat -> ~ stop b i
        end).
      { intros s' Hno H1 H2. destruct (IH b (S it) s') as (r & Hr & Hspec); auto; try lia.
        replace (S it - 1)%nat with it in Hr by lia. exists r. split; [exact Hr|].
        destruct r as [g|].
        - destruct Hspec as (Hg & Hst & Hnone). split; [lia|]. split; [assumption|].
          intros i Hi. destruct (Nat.eq_dec i it) as [->|]; [assumption|]. apply Hnone. lia.
        - intros i Hi. destruct (Nat.eq_dec i it) as [->|]; [assumption|]. apply Hspec. lia. }
      replace (S it - 1)%nat with it in K by lia.
      destruct (Rlt_dec (sq (pt l it) (pt l (it - 1))) epsilon) as [Ht|Ht].
      + assert (turn it) as Htn by exact Ht.
        destruct tn eqn:Etn.
        * exists (Some it). split; [reflexivity|]. split; [lia|]. split; [left; auto|]. intros i Hi. lia.
        * apply K; [|intros; left; reflexivity|intros; contradiction].
          intros [[? _]|(_ & _ & Hsw)]; [congruence|]. apply Hsw. exact Htn.
      + assert (~ turn it) as Htn by exact Ht.
        destruct sb eqn:Esb.
        * set (s' := sign_vel (pt l (it - 1)) (pt l it)).
          assert (s' = dir it) as Es by reflexivity.
          destruct (Rlt_dec (s * s') 0) as [Hneg|Hneg].
          -- exists (Some it). split; [reflexivity|]. split; [lia|]. split; [|intros i Hi; lia].
             right. destruct (Hs1 eq_refl) as [->|(H2 & Hnt & ->)]; [lra|].
             repeat split; auto; lia.
          -- apply K.
             ++ intros [[_ ?]|(_ & H2 & Hsw)]; [contradiction|]. destruct Hsw as (_ & Hnt & _ & Hlt).
                rewrite (Hs2 eq_refl H2 Hnt), Es in Hneg. contradiction.
             ++ intros _. right. rewrite Es. repeat split; auto; lia.
             ++ intros _ _ _. exact Es.
        * apply K; [|discriminate|discriminate].
          intros [[_ ?]|(? & _)]; [contradiction|congruence].
  Qed.

  Lemma flg_spec b e : (b < length l)%nat -> (e <= length l)%nat ->
    exists r, findLocalGoal l sb tn epsilon b e = Ok r /\
      match r with
      | None => forall i, (b < i < e)%nat -> ~ stop b i
      | Some g => (b < g < e)%nat /\ stop b g /\ forall i, (b < i < g)%nat -> ~ stop b i
      end.
  Proof.
    intros Hb He. unfold findLocalGoal. rewrite (proj2 (Nat.leb_gt _ _) Hb).
    destruct (le_lt_dec e (S b)) as [Hle|Hlt].
    - replace (e - S b)%nat with 0%nat by lia. exists None. split; [reflexivity|]. intros i Hi. lia.
    - destruct (flg_loop_spec (e - S b) b (S b) 0) as (r & Hr & Hspec); try lia; auto.
      replace (S b - 1)%nat with b in Hr by lia. exists r. split; [exact Hr|].
      destruct r as [g|].
      + destruct Hspec as (H1 & H2 & H3). split; [lia|]. split; [assumption|]. intros i Hi. apply H3. lia.
      + intros i Hi. apply Hspec. lia.
  Qed.

  Lemma elg_spec f : forall b e, (b < length l)%nat -> (e <= length l)%nat -> (e - b < f)%nat ->
    exists gs, elg_loop l sb tn epsilon f b e = Some (Ok gs) /\
      (forall i, In i gs -> (b < i)%nat) /\
      (forall g1 x y g2, gs = g1 ++ x :: y :: g2 -> (x < y)%nat) /\
      (forall i, In i gs <-> (b < i < e)%nat /\
         ((tn = true /\ turn i) \/ (sb = true /\ (b + 2 <= i)%nat /\ switch i /\ ~ In (i - 1)%nat gs))).
  Proof.
    induction f as [|f IH]; intros b e Hb He Hf; [lia|].
    cbn [elg_loop]. destruct (flg_spec b e Hb He) as (r & -> & Hspec). destruct r as [g|].
    - destruct Hspec as (Hg & Hst & Hno).
      destruct (IH g e) as (gs & -> & Hlo & Hord & Hin); try lia.
      exists (g :: gs). split; [reflexivity|]. split; [|split].
      + intros i [<-|Hi]; [lia|]. specialize (Hlo i Hi). lia.
      + intros [|z g1] x y g2 E; injection E as -> E.
        * apply Hlo. rewrite E. left; reflexivity.
        * eapply Hord. exact E.
      + intros i. destruct (lt_eq_lt_dec i g) as [[Hlt|Heq]|Hgt].
        * split.
          -- intros [->|Hi]; [lia|]. specialize (Hlo i Hi). lia.
          -- intros [Hi Hs]. exfalso. apply (Hno i); [lia|].
             destruct Hs as [Hs|(H1 & H2 & H3 & _)]; [left; assumption|right; auto].
        * subst i. split; [|left; reflexivity]. intros _. split; [lia|].
          destruct Hst as [Hst|(H1 & H2 & H3)]; [left; assumption|]. right. repeat split; auto; try apply H3.
          intros [?|Hi]; [lia|]. specialize (Hlo _ Hi). lia.
        * split.
          -- intros [->|Hi]; [lia|]. apply Hin in Hi as [Hi Hs]. split; [lia|].
             destruct Hs as [Hs|(H1 & H2 & H3 & H4)]; [left; assumption|right]. repeat split; auto; try lia; try apply H3.
             intros [?|?]; [lia|contradiction].
          -- intros [Hi Hs]. right. apply Hin. split; [lia|].
             destruct Hs as [Hs|(H1 & H2 & H3 & H4)]; [left; assumption|right].
             assert (g <> (i - 1)%nat) by (intros ->; apply H4; left; reflexivity).
             repeat split; auto; try lia; try apply H3. intros Hi'. apply H4. right. assumption.
    - exists []. split; [reflexivity|]. split; [intros i []|]. split; [intros [|? ?] ? ? ? E; discriminate|].
      intros i. split; [intros []|]. intros [Hi Hs]. apply (Hspec i Hi).
      destruct Hs as [Hs|(H1 & H2 & H3 & _)]; [left; assumption|right; auto].
  Qed.

  (** C40: for every path and range, enumeration terminates without reading outside the
      path; the positions returned are strictly increasing; and they are exactly the
      in-place turns and those switch-backs that do not directly follow a returned
      position. *)
  Theorem C40_local_goals_exact b e : (b < length l)%nat -> (e <= length l)%nat ->
    exists gs, enumerateLocalGoals l sb tn epsilon b e = Some (Ok gs) /\
      (forall g1 x y g2, gs = g1 ++ x :: y :: g2 -> (x < y)%nat) /\
      (forall i, In i gs <-> (b < i < e)%nat /\
         ((tn = true /\ turn i) \/ (sb = true /\ (b + 2 <= i)%nat /\ switch i /\ ~ In (i - 1)%nat gs))).
  Proof.
    intros Hb He. destruct (elg_spec (S (e - b)) b e Hb He) as (gs & H1 & _ & H2 & H3); [lia|].
    exists gs. auto.
  Qed.

  Corollary C40_every_turn_is_a_local_goal b e gs i : (b < length l)%nat -> (e <= length l)%nat ->
    enumerateLocalGoals l sb tn epsilon b e = Some (Ok gs) -> tn = true ->
    (b < i < e)%nat -> turn i -> In i gs.
  Proof.
    intros Hb He Hgs Ht Hi Hti. destruct (C40_local_goals_exact b e Hb He) as (gs' & E & _ & H).
    rewrite Hgs in E. injection E as <-. apply H. auto.
  Qed.
End LocalGoalProofs.

(** A switch-back that directly follows another one is not returned: back and forth
    along a line gives one local goal for two reversals. *)
Definition zigzag : list pose2 :=
  [mkP2 0 0 0 None; mkP2 2 0 0 None; mkP2 1 0 0 None; mkP2 3 0 0 None].
Theorem C40_every_switch_back_is_a_local_goal_refuted :
  switch_at zigzag (1/100) 2 /\ switch_at zigzag (1/100) 3 /\
  exists gs, enumerateLocalGoals zigzag true true (1/100) 0 4 = Some (Ok gs) /\ In 2%nat gs /\ ~ In 3%nat gs.
Proof.
  assert (S2 : switch_at zigzag (1/100) 2).
  { unfold switch_at, turn_at, travel, zigzag, pt, sq. cbn [nth Nat.sub p_x p_y p_yaw].
    rewrite cos_0, sin_0. repeat split; lia || lra. }
  assert (S3 : switch_at zigzag (1/100) 3).
  { unfold switch_at, turn_at, travel, zigzag, pt, sq. cbn [nth Nat.sub p_x p_y p_yaw].
    rewrite cos_0, sin_0. repeat split; lia || lra. }
  split; [assumption|]. split; [assumption|].
  destruct (C40_local_goals_exact zigzag true true (1/100) 0 4) as (gs & E & _ & H); [simpl; lia..|].
  exists gs. split; [assumption|].
  assert (~ In 1%nat gs) as N1.
  { intros Hi. apply H in Hi as [_ [[_ Ht]|(_ & ? & _)]]; [|lia].
    unfold turn_at, zigzag, pt, sq in Ht. cbn [nth Nat.sub p_x p_y] in Ht. lra. }
  assert (In 2%nat gs) as I2 by (apply H; split; [lia|right; repeat split; try lia; try assumption; apply S2]).
  split; [assumption|]. intros Hi. apply H in Hi as [_ [[_ Ht]|(_ & _ & _ & Hn)]].
  - apply S3 in Ht. assumption.
  - apply Hn. exact I2.
Qed.

(** *** C53: estimated times of arrival. *)
Definition headings_ok (l : list pose2) : Prop := forall p, In p l -> - PI <= p_yaw p <= PI.

Lemma turn_angle_nonneg a b : - PI <= p_yaw a <= PI -> - PI <= p_yaw b <= PI -> 0 <= turn_angle a b <= PI.
Proof.
  intros Ha Hb. unfold turn_angle. pose proof PI_RGT_0.
  assert (Rabs (p_yaw a - p_yaw b) <= 2 * PI) by (apply Rabs_le; lra).
  pose proof (Rabs_pos (p_yaw a - p_yaw b)). destruct (Rlt_dec PI (Rabs (p_yaw a - p_yaw b))); lra.
Qed.

Lemma eta_loop_mono lin ang : 0 < lin -> 0 < ang -> forall l prev e,
  - PI <= p_yaw prev <= PI -> headings_ok l ->
  forall l1 x y l2, e :: eta_loop lin ang e prev l = l1 ++ x :: y :: l2 -> x <= y.
Proof.
  intros Hl Ha. induction l as [|p l IH]; intros prev e Hp Hh l1 x y l2 E.
  - destruct l1 as [|? [|? l1]]; discriminate.
  - cbn [eta_loop] in E.
    set (e' := if Rlt_dec (1/1000000) (norm2 prev p) then _ else _) in E.
    assert (e <= e') as Hle.
    { subst e'. destruct (Rlt_dec (1/1000000) (norm2 prev p)) as [Hd|Hd].
      - assert (0 < norm2 prev p / lin) by (apply Rdiv_lt_0_compat; lra). lra.
      - pose proof (turn_angle_nonneg prev p Hp (Hh p (or_introl eq_refl))) as Ht.
        assert (0 <= turn_angle prev p / ang) by (apply Rmult_le_pos; [lra|left; apply Rinv_0_lt_compat; lra]). lra. }
    destruct l1 as [|z l1].
    + injection E as <- <- _. exact Hle.
    + injection E as _ E. eapply (IH p e'); [apply Hh; left; reflexivity|intros q Hq; apply Hh; right; exact Hq|exact E].
Qed.

(** C53: one arrival time per pose, starting with the given one, never decreasing along
    the path (positive speeds, headings normalised as tf2::getYaw returns them). *)
Theorem C53_arrival_times_are_monotone lin ang initial l : 0 < lin -> 0 < ang -> headings_ok l ->
  length (etas lin ang initial l) = length l /\
  (l <> [] -> hd_error (etas lin ang initial l) = Some initial) /\
  (forall l1 x y l2, etas lin ang initial l = l1 ++ x :: y :: l2 -> x <= y).
Proof.
  intros Hl Ha Hh. destruct l as [|p l]; [cbn; split; [reflexivity|split; [congruence|intros [|? ?] ? ? ? E; discriminate]]|].
  cbn [etas]. split; [|split; [reflexivity|]].
  - cbn [length]. f_equal. generalize initial. clear Hh. revert p. induction l as [|q l IH]; intros p e; [reflexivity|].
    cbn [eta_loop length]. rewrite IH. reflexivity.
  - apply eta_loop_mono; auto; [apply Hh; left; reflexivity|intros q Hq; apply Hh; right; exact Hq].
Qed.

(** Euclidean distance and the length of a polyline, for the specification. *)
Definition euclid (a b : pose2) : R := sqrt ((p_x a - p_x b)² + (p_y a - p_y b)²).
Fixpoint polyline (l : list pose2) : R :=
  match l with
  | a :: ((b :: _) as l') => euclid a b + polyline l'
  | _ => 0
  end.
(** C53: the length reported for a path is that of the polyline. *)
Theorem C53_length_is_polyline l : path_length l = polyline l.
Proof.
  destruct l as [|p l]; [reflexivity|]. cbn [path_length]. revert p.
  induction l as [|q l IH]; intros p; [reflexivity|]. cbn [len_loop]. rewrite IH. reflexivity.
Qed.
(** C53: along a route without turns in place the total time is length over speed. *)
Fixpoint moves (prev : pose2) (l : list pose2) : Prop :=
  match l with [] => True | p :: l' => 1/1000000 < euclid prev p /\ moves p l' end.
Theorem C53_travel_time_is_length_over_speed lin ang initial p l : 0 < lin -> moves p l ->
  last (etas lin ang initial (p :: l)) 0 = initial + polyline (p :: l) / lin.
Proof.
  intros Hl. rewrite <- C53_length_is_polyline. cbn [etas path_length].
  assert (G : forall l p e, moves p l -> last (e :: eta_loop lin ang e p l) 0 = e + len_loop p l / lin).
  { clear - Hl. induction l as [|q l IH]; intros p e Hm.
    - cbn. field. lra.
    - destruct Hm as [Hd Hm]. change (euclid p q) with (norm2 p q) in Hd. cbn [eta_loop len_loop].
      destruct (Rlt_dec (1/1000000) (norm2 p q)) as [_|]; [|contradiction].
      change (last (e :: ?a :: ?b) 0) with (last (a :: b) 0).
      rewrite (IH q (e + norm2 p q / lin) Hm). field. lra. }
  intros Hm. apply G. exact Hm.
Qed.

Example C53_example : headings_ok [mkP2 0 0 0 None; mkP2 3 4 0 None] /\
  etas 2 1 10 [mkP2 0 0 0 None; mkP2 3 4 0 None] = [10; 12 + 1/2].
Proof.
  pose proof PI_RGT_0. split.
  - intros p [<-|[<-|[]]]; cbn; lra.
  - cbn [etas eta_loop]. 
    assert (E : norm2 (mkP2 0 0 0 None) (mkP2 3 4 0 None) = 5).
    { unfold norm2, sq; cbn [p_x p_y]. replace (_ + _) with (5 * 5) by ring. apply sqrt_square. lra. }
    rewrite E. destruct (Rlt_dec (1/1000000) 5); [|lra]. do 2 f_equal. lra.
Qed.

Print Assumptions C39_import_lists_the_stops.
Print Assumptions C39_keeps_start_and_final_heading.
Print Assumptions C39_no_three_poses_at_one_place.
Print Assumptions C39_spaced_message_is_unchanged.
Print Assumptions C39_export_import_is_identity.
Print Assumptions C39_keeps_every_long_step_refuted.
Print Assumptions C40_local_goals_exact.
Print Assumptions C40_every_turn_is_a_local_goal.
Print Assumptions C40_every_switch_back_is_a_local_goal_refuted.
Print Assumptions C53_arrival_times_are_monotone.
Print Assumptions C53_travel_time_is_length_over_speed.
Print Assumptions C53_length_is_polyline.
