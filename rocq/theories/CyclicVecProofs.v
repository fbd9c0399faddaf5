From Coq Require Import ZifyBool ZifyNat.
From Verif Require Import Common CyclicVec CyclicVecSpec.
Local Open Scope Z_scope.
Ltac Zify.zify_post_hook ::= Z.div_mod_to_equations.

Lemma rem_facts e res : 0 < res ->
  exists q, e = q * res + Z.rem e res /\ - res < Z.rem e res < res.
Proof.
  intros H. exists (Z.quot e res). split.
  - rewrite (Z.quot_rem' e res) at 1. lia.
  - destruct (Z_le_gt_dec 0 e).
    + pose proof (Z.rem_bound_pos e res). lia.
    + pose proof (Z.rem_bound_pos (-e) res). rewrite Z.rem_opp_l in H0 by lia. lia.
Qed.

Lemma half_facts res : 0 < res ->
  c_quot res 2 = res / 2 /\ res / 2 - res = - ((res + 1) / 2).
Proof.
  intros H. unfold c_quot. split.
  - apply Z.quot_div_nonneg; lia.
  - lia.
Qed.

Lemma cycleElement_spec e res : 0 < res ->
  exists x, cycleElement e res = Ok x /\ same_direction res x e /\ signed_range res x.
Proof.
  intros H. unfold cycleElement, c_rem.
  destruct (half_facts res H) as [E1 E2]. rewrite E1.
  destruct (rem_facts e res H) as (q & Eq & Hb).
  destruct (Z.eqb_spec res 0) as [|_]; [lia|].
  set (r := Z.rem e res) in *. clearbody r.
  destruct (Z.ltb_spec r (res / 2 - res)) as [L|L].
  - exists (r + res). split; [reflexivity|]. split.
    + exists (1 - q). subst e. ring.
    + unfold signed_range. lia.
  - destruct (Z.leb_spec (res / 2) r) as [M|M].
    + exists (r - res). split; [reflexivity|]. split.
      * exists (-1 - q). subst e. ring.
      * unfold signed_range. lia.
    + exists r. split; [reflexivity|]. split.
      * exists (- q). subst e. ring.
      * unfold signed_range. lia.
Qed.

Lemma cycleUnsignedElement_spec e res : 0 < res ->
  exists x, cycleUnsignedElement e res = Ok x /\ same_direction res x e /\ unsigned_range res x.
Proof.
  intros H. unfold cycleUnsignedElement, c_rem.
  destruct (rem_facts e res H) as (q & Eq & Hb).
  destruct (Z.eqb_spec res 0) as [|_]; [lia|].
  set (r := Z.rem e res) in *. clearbody r.
  destruct (Z.ltb_spec r 0) as [L|L].
  - exists (r + res). split; [reflexivity|]. split.
    + exists (1 - q). subst e. ring.
    + unfold unsigned_range. lia.
  - exists r. split; [reflexivity|]. split.
    + exists (- q). subst e. ring.
    + unfold unsigned_range. lia.
Qed.

Lemma same_direction_eq_in_window res lo a b : 0 < res ->
  same_direction res a b -> lo <= a < lo + res -> lo <= b < lo + res -> a = b.
Proof.
  intros H [k Ek] Ha Hb. subst a.
  assert (k = 0) by nia. subst k. ring.
Qed.

Lemma same_direction_sym res a b : same_direction res a b -> same_direction res b a.
Proof. intros [k E]. exists (- k). subst a. ring. Qed.

Lemma same_direction_trans res a b c :
  same_direction res a b -> same_direction res b c -> same_direction res a c.
Proof. intros [k E] [l F]. exists (k + l). subst a b. ring. Qed.

Lemma same_direction_refl res a : same_direction res a a.
Proof. exists 0. ring. Qed.

Lemma signed_window res x : 0 < res ->
  signed_range res x <-> (res / 2 - res) <= x < (res / 2 - res) + res.
Proof. intros H. unfold signed_range. lia. Qed.

(** The canonical element is unique: complete characterisation. *)
Lemma cycleElement_iff e res x : 0 < res ->
  cycleElement e res = Ok x <-> same_direction res x e /\ signed_range res x.
Proof.
  intros H. destruct (cycleElement_spec e res H) as (y & E & S1 & R1).
  split.
  - intros F. rewrite E in F. injection F as <-. auto.
  - intros [S2 R2]. rewrite E. f_equal.
    apply signed_window in R1; [|exact H]. apply signed_window in R2; [|exact H].
    eapply same_direction_eq_in_window; eauto.
    eapply same_direction_trans; [exact S1|apply same_direction_sym; exact S2].
Qed.

Lemma cycleUnsignedElement_iff e res x : 0 < res ->
  cycleUnsignedElement e res = Ok x <-> same_direction res x e /\ unsigned_range res x.
Proof.
  intros H. destruct (cycleUnsignedElement_spec e res H) as (y & E & S1 & R1).
  split.
  - intros F. rewrite E in F. injection F as <-. auto.
  - intros [S2 R2]. rewrite E. f_equal. unfold unsigned_range in *.
    apply (same_direction_eq_in_window res 0); [exact H| |lia|lia].
    eapply same_direction_trans; [exact S1|apply same_direction_sym; exact S2].
Qed.

Lemma cycleElement_idem e res x : 0 < res ->
  cycleElement e res = Ok x -> cycleElement x res = Ok x.
Proof.
  intros H E. apply cycleElement_iff in E; [|exact H]. destruct E as [_ R].
  apply cycleElement_iff; [exact H|]. split; [apply same_direction_refl|exact R].
Qed.

Lemma cycleUnsignedElement_idem e res x : 0 < res ->
  cycleUnsignedElement e res = Ok x -> cycleUnsignedElement x res = Ok x.
Proof.
  intros H E. apply cycleUnsignedElement_iff in E; [|exact H]. destruct E as [_ R].
  apply cycleUnsignedElement_iff; [exact H|]. split; [apply same_direction_refl|exact R].
Qed.

Lemma cycleElement_complete a b res : 0 < res ->
  cycleElement a res = cycleElement b res <-> same_direction res a b.
Proof.
  intros H.
  destruct (cycleElement_spec a res H) as (x & Ex & Sx & Rx).
  destruct (cycleElement_spec b res H) as (y & Ey & Sy & Ry).
  rewrite Ex, Ey. split.
  - intros F. injection F as <-.
    eapply same_direction_trans; [apply same_direction_sym; exact Sx|exact Sy].
  - intros S. f_equal.
    apply signed_window in Rx; [|exact H]. apply signed_window in Ry; [|exact H].
    eapply same_direction_eq_in_window; eauto.
    eapply same_direction_trans; [exact Sx|].
    eapply same_direction_trans; [exact S|apply same_direction_sym; exact Sy].
Qed.

Lemma cycleUnsignedElement_complete a b res : 0 < res ->
  cycleUnsignedElement a res = cycleUnsignedElement b res <-> same_direction res a b.
Proof.
  intros H.
  destruct (cycleUnsignedElement_spec a res H) as (x & Ex & Sx & Rx).
  destruct (cycleUnsignedElement_spec b res H) as (y & Ey & Sy & Ry).
  rewrite Ex, Ey. unfold unsigned_range in *. split.
  - intros F. injection F as <-.
    eapply same_direction_trans; [apply same_direction_sym; exact Sx|exact Sy].
  - intros S. f_equal. apply (same_direction_eq_in_window res 0); [exact H| |lia|lia].
    eapply same_direction_trans; [exact Sx|].
    eapply same_direction_trans; [exact S|apply same_direction_sym; exact Sy].
Qed.

Lemma cycleWith_iff f rng
  (Hf : forall e r x, 0 < r -> f e r = Ok x <-> same_direction r x e /\ rng r x) :
  forall nc v res w, length v = length res ->
    (forall i r, (nc <= i)%nat -> nth_error res i = Some r -> 0 < r) ->
    cycleWith f nc v res = Ok w <-> canon rng nc v res w.
Proof.
  intros nc v. revert nc. induction v as [|e v IH]; intros nc res w HL HP.
  - destruct res; [|discriminate]. simpl. unfold canon. split.
    + intros E. injection E as <-. split; [reflexivity|].
      intros i ? ? ? Hn. destruct i; discriminate.
    + intros [L _]. destruct w; [reflexivity|discriminate].
  - destruct res as [|r res]; [discriminate|]. injection HL as HL.
    simpl. destruct nc as [|nc].
    + assert (HPt : forall i r0, (0 <= i)%nat -> nth_error res i = Some r0 -> 0 < r0).
      { intros i r0 _ Hn. apply (HP (S i) r0); [lia|exact Hn]. }
      assert (Hr : 0 < r) by (apply (HP 0%nat r); [lia|reflexivity]).
      split.
      * destruct (f e r) as [x|] eqn:Ef; [|discriminate].
        destruct (cycleWith f 0 v res) as [t|] eqn:Et; [|discriminate].
        simpl. intros E. injection E as <-.
        apply Hf in Ef; [|exact Hr]. apply IH in Et; [|exact HL|exact HPt].
        destruct Et as [Lt Ht]. split; [simpl; congruence|].
        intros [|i] e0 r0 x0 H1 H2 H3; simpl in *.
        -- injection H1 as <-. injection H2 as <-. injection H3 as <-. exact Ef.
        -- exact (Ht i e0 r0 x0 H1 H2 H3).
      * intros [L H]. destruct w as [|x w]; [discriminate|]. injection L as L.
        pose proof (H 0%nat e r x eq_refl eq_refl eq_refl) as H0. simpl in H0.
        apply Hf in H0; [|exact Hr]. rewrite H0. simpl.
        assert (C : canon rng 0 v res w).
        { split; [exact L|]. intros i e0 r0 x0 H1 H2 H3.
          exact (H (S i) e0 r0 x0 H1 H2 H3). }
        apply IH in C; [|exact HL|exact HPt]. rewrite C. reflexivity.
    + assert (HPt : forall i r0, (nc <= i)%nat -> nth_error res i = Some r0 -> 0 < r0).
      { intros i r0 Hi Hn. apply (HP (S i) r0); [lia|exact Hn]. }
      split.
      * destruct (cycleWith f nc v res) as [t|] eqn:Et; [|discriminate].
        simpl. intros E. injection E as <-.
        apply IH in Et; [|exact HL|exact HPt].
        destruct Et as [Lt Ht]. split; [simpl; congruence|].
        intros [|i] e0 r0 x0 H1 H2 H3; simpl in *.
        -- congruence.
        -- exact (Ht i e0 r0 x0 H1 H2 H3).
      * intros [L H]. destruct w as [|x w]; [discriminate|]. injection L as L.
        pose proof (H 0%nat e r x eq_refl eq_refl eq_refl) as H0. simpl in H0. subst x.
        assert (C : canon rng nc v res w).
        { split; [exact L|]. intros i e0 r0 x0 H1 H2 H3.
          exact (H (S i) e0 r0 x0 H1 H2 H3). }
        apply IH in C; [|exact HL|exact HPt]. rewrite C. reflexivity.
Qed.

Lemma cycle_iff nc v res w : length v = length res ->
  (forall i r, (nc <= i)%nat -> nth_error res i = Some r -> 0 < r) ->
  cycle nc v res = Ok w <-> canon signed_range nc v res w.
Proof. intros. apply cycleWith_iff; auto. intros; apply cycleElement_iff; auto. Qed.

Lemma cycleUnsigned_iff nc v res w : length v = length res ->
  (forall i r, (nc <= i)%nat -> nth_error res i = Some r -> 0 < r) ->
  cycleUnsigned nc v res = Ok w <-> canon unsigned_range nc v res w.
Proof. intros. apply cycleWith_iff; auto. intros; apply cycleUnsignedElement_iff; auto. Qed.

Lemma cycleWith_total f (Hf : forall e r, 0 < r -> exists x, f e r = Ok x) :
  forall nc v res, length v = length res ->
    (forall i r, (nc <= i)%nat -> nth_error res i = Some r -> 0 < r) ->
    exists w, cycleWith f nc v res = Ok w.
Proof.
  intros nc v. revert nc. induction v as [|e v IH]; intros nc res HL HP.
  - destruct res; [|discriminate]. exists []. reflexivity.
  - destruct res as [|r res]; [discriminate|]. injection HL as HL. simpl.
    destruct nc as [|nc].
    + destruct (Hf e r) as [x Ex]; [apply (HP 0%nat r); [lia|reflexivity]|].
      destruct (IH 0%nat res HL) as [w Ew].
      { intros i r0 Hi Hn. apply (HP (S i)); [lia|exact Hn]. }
      rewrite Ex, Ew. eexists; reflexivity.
    + destruct (IH nc res HL) as [w Ew].
      { intros i r0 Hi Hn. apply (HP (S i)); [lia|exact Hn]. }
      rewrite Ew. eexists; reflexivity.
Qed.

Lemma cycleElement_zero_ub e : cycleElement e 0 = UB.
Proof. reflexivity. Qed.

Lemma isExceeded_false_iff nc v sz :
  length v = length sz ->
  Forall int32 v -> Forall (fun s => int32 s /\ 0 <= s) sz ->
  isExceeded nc v sz = false <-> inside_first nc v sz.
Proof.
  unfold isExceeded, inside_first. revert nc sz.
  induction v as [|a v IH]; intros nc sz HL HV HS.
  - destruct sz; [|discriminate]. simpl. rewrite firstn_nil. simpl. split; [|reflexivity].
    intros _ i ? ? _ H. destruct i; discriminate.
  - destruct sz as [|s sz]; [discriminate|]. injection HL as HL.
    inversion HV as [|? ? Ha HV']; subst. inversion HS as [|? ? Hs HS']; subst.
    destruct nc as [|nc].
    + simpl. split; [|reflexivity]. intros _ i ? ? Hi. lia.
    + simpl. rewrite orb_false_iff. rewrite IH by assumption.
      assert (E : (to_u32 s <=? to_u32 a) = false <-> 0 <= a < s).
      { unfold to_u32, int32 in *.
        assert (Hsm : s mod 2 ^ 32 = s) by (apply Z.mod_small; lia).
        rewrite Hsm.
        destruct (Z_lt_ge_dec a 0) as [N|N].
        - assert (Ham : a mod 2 ^ 32 = a + 2 ^ 32).
          { symmetry. apply (Z.mod_unique a (2^32) (-1)); lia. }
          rewrite Ham. lia.
        - rewrite Z.mod_small by lia. lia. }
      rewrite E. split.
      * intros [H1 H2] [|i] a0 s0 Hi Hn1 Hn2; simpl in *.
        -- injection Hn1 as <-. injection Hn2 as <-. exact H1.
        -- apply (H2 i); [lia|assumption|assumption].
      * intros H. split.
        -- apply (H 0%nat a s); [lia|reflexivity|reflexivity].
        -- intros i a0 s0 Hi Hn1 Hn2. apply (H (S i)); [lia|exact Hn1|exact Hn2].
Qed.
