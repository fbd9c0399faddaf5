From Coq Require Import ZifyBool ZifyNat.
From Verif Require Import Common GridMap GridMapSpec GridMapRun.
Local Open Scope Z_scope.

Section Addr.
  Variable bit : Z.
  Hypothesis Hbit : 0 <= bit.
  Notation W := (2 ^ bit).

  Lemma W_pos : 0 < W.
  Proof. apply Z.pow_pos_nonneg; lia. Qed.

  (** Block counts as computed by [reset]. *)
  Definition bcount (s : Z) : Z := (Z.max s W + W - 1) / W.
  Fixpoint bsizes (n : nat) (size : list Z) : list Z :=
    match size with
    | [] => []
    | s :: t => match n with S n' => bcount s :: bsizes n' t | O => 1 :: bsizes O t end
    end.
  Fixpoint wprod (n : nat) (size : list Z) : Z :=
    match size with
    | [] => 1
    | s :: t => match n with S n' => W * wprod n' t | O => s * wprod O t end
    end.
  Fixpoint bprod (n : nat) (size : list Z) : Z :=
    match size with
    | [] => 1
    | s :: t => match n with S n' => bcount s * bprod n' t | O => bprod O t end
    end.

  Lemma bcount_pos s : 0 < bcount s.
  Proof.
    pose proof W_pos. unfold bcount.
    assert (1 <= (Z.max s W + W - 1) / W) by (apply Z.div_le_lower_bound; lia). lia.
  Qed.

  Lemma bcount_covers s p : 0 <= p < s -> 0 <= p / W < bcount s.
  Proof.
    intros H. pose proof W_pos. unfold bcount. split.
    - apply Z.div_pos; lia.
    - assert (p / W + 1 <= (Z.max s W + W - 1) / W); [|lia].
      replace (p / W + 1) with ((p + 1 * W) / W) by (rewrite Z.div_add by lia; reflexivity).
      apply Z.div_le_mono; lia.
  Qed.

  Lemma wprod_pos n size : Forall (fun s => 0 < s) size -> 0 < wprod n size.
  Proof.
    revert n. induction size as [|s t IH]; intros n H; simpl; [lia|].
    inversion H; subst. pose proof W_pos. destruct n; apply Z.mul_pos_pos; auto.
  Qed.

  Lemma bprod_pos n size : 0 < bprod n size.
  Proof.
    revert n. induction size as [|s t IH]; intros n; simpl; [lia|].
    destruct n; [apply IH|]. apply Z.mul_pos_pos; [apply bcount_pos|apply IH].
  Qed.

  Lemma slots_prod n size : slots W n size = wprod n size * bprod n size.
  Proof.
    revert n. induction size as [|s t IH]; intros n; simpl; [reflexivity|].
    destruct n.
    - rewrite IH. ring.
    - rewrite IH. unfold bcount. ring.
  Qed.

  Lemma wrap64_small z : 0 <= z < 2 ^ 64 -> wrap64 z = z.
  Proof. intros H. apply Z.mod_small. exact H. Qed.

  Lemma valid_pos size pos : valid size pos -> Forall (fun s => 0 < s) size.
  Proof. induction 1; constructor; auto. lia. Qed.

  Lemma valid_length size pos : valid size pos -> length pos = length size.
  Proof. induction 1; simpl; congruence. Qed.

  Lemma land_mask p : 0 <= p -> p < 2^64 ->
    Z.land (wrap64 p) (block_mask bit) = p mod W.
  Proof.
    intros H1 H2. rewrite wrap64_small by lia. unfold block_mask.
    rewrite Z.shiftl_1_l. rewrite <- (Z.land_ones p bit Hbit), Z.ones_equiv. f_equal. 
  Qed.

  (** Explicit, unwrapped form of the address loop. *)
  Fixpoint addr_plain (n : nat) (pos size : list Z) (ba a : Z) : Z * Z :=
    match pos, size with
    | p :: pos', s :: size' =>
        match n with
        | S n' => addr_plain n' pos' size' (ba * bcount s + p / W) (a * W + p mod W)
        | O => addr_plain O pos' size' ba (a * s + p)
        end
    | _, _ => (ba, a)
    end.

  Lemma mul_bound x X k : 0 <= x < X -> 0 < k -> forall y, 0 <= y < k -> 0 <= x * k + y < X * k.
  Proof. intros. nia. Qed.

  Lemma addr_loop_plain : forall size pos n ba a A B,
    valid size pos -> 0 <= a < A -> 0 <= ba < B ->
    A * wprod n size < 2 ^ 64 -> B * bprod n size < 2 ^ 64 ->
    Forall (fun p => p < 2 ^ 64) pos ->
    block_addr_loop bit n pos size (bsizes n size) ba a = addr_plain n pos size ba a /\
    0 <= snd (addr_plain n pos size ba a) < A * wprod n size /\
    0 <= fst (addr_plain n pos size ba a) < B * bprod n size.
  Proof.
    intros size pos n ba a A B HV. revert n ba a A B.
    pose proof W_pos as HW.
    induction HV as [|s p size pos Hp HV IH]; intros n ba a A B Ha Hba HA HB HF.
    - simpl. split; [reflexivity|]. lia.
    - inversion HF as [|? ? Hp64 HF']; subst.
      pose proof (valid_pos _ _ HV) as Hpos.
      destruct n as [|n]; simpl in *.
      + pose proof (wprod_pos O size Hpos) as Hw.
        pose proof (bprod_pos O size) as Hb.
        pose proof (mul_bound a A s ltac:(lia) ltac:(lia) p ltac:(lia)) as HX.
        assert (HXA : A * s < 2 ^ 64) by nia.
        assert (E : wrap64 (wrap64 (a * wrap64 s) + wrap64 p) = a * s + p).
        { assert (s < 2 ^ 64) by nia.
          rewrite (wrap64_small s) by lia. rewrite (wrap64_small p) by lia.
          rewrite (wrap64_small (a * s)) by nia. apply wrap64_small. lia. }
        rewrite E.
        destruct (IH O ba (a * s + p) (A * s) B) as (E1 & E2 & E3); auto.
        { rewrite <- Z.mul_assoc. exact HA. }
        rewrite E1. repeat split; try lia.
      + pose proof (wprod_pos n size Hpos) as Hw.
        pose proof (bprod_pos n size) as Hb.
        pose proof (bcount_pos s) as Hbs.
        pose proof (bcount_covers s p Hp) as Hcov.
        assert (Hm : 0 <= p mod W < W) by (apply Z.mod_pos_bound; lia).
        pose proof (mul_bound a A W ltac:(lia) ltac:(lia) (p mod W) Hm) as HX.
        pose proof (mul_bound ba B (bcount s) ltac:(lia) Hbs (p / W) Hcov) as HY.
        assert (HXA : A * W < 2 ^ 64) by nia.
        assert (HYB : B * bcount s < 2 ^ 64) by nia.
        assert (E : wrap64 (wrap64 (Z.shiftl a bit) + Z.land (wrap64 p) (block_mask bit)) = a * W + p mod W).
        { rewrite land_mask by lia. rewrite Z.shiftl_mul_pow2 by lia.
          rewrite (wrap64_small (a * W)) by nia. apply wrap64_small. lia. }
        assert (F : wrap64 (wrap64 (ba * wrap64 (bcount s)) + wrap64 (Z.shiftr p bit)) = ba * bcount s + p / W).
        { rewrite Z.shiftr_div_pow2 by lia.
          assert (bcount s < 2 ^ 64) by nia.
          assert (p / W < 2 ^ 64) by lia.
          rewrite (wrap64_small (bcount s)) by lia. rewrite (wrap64_small (p / W)) by lia.
          rewrite (wrap64_small (ba * bcount s)) by nia. apply wrap64_small. lia. }
        rewrite E, F.
        destruct (IH n (ba * bcount s + p / W) (a * W + p mod W) (A * W) (B * bcount s)) as (E1 & E2 & E3); auto.
        { rewrite <- Z.mul_assoc. exact HA. }
        { rewrite <- Z.mul_assoc. exact HB. }
        rewrite E1. repeat split; lia.
  Qed.

  Lemma mixed_radix_inj k x1 y1 x2 y2 : 0 <= y1 < k -> 0 <= y2 < k ->
    x1 * k + y1 = x2 * k + y2 -> x1 = x2 /\ y1 = y2.
  Proof. intros. assert (x1 = x2) by nia. subst. lia. Qed.

  Lemma addr_plain_inj : forall size pos1, valid size pos1 -> forall pos2, valid size pos2 ->
    forall n ba1 a1 ba2 a2,
    addr_plain n pos1 size ba1 a1 = addr_plain n pos2 size ba2 a2 ->
    ba1 = ba2 /\ a1 = a2 /\ pos1 = pos2.
  Proof.
    intros size pos1 HV1. induction HV1 as [|s p size pos Hp HV IH]; intros pos2 HV2 n ba1 a1 ba2 a2.
    - inversion HV2; subst. simpl. intros E. injection E as -> ->. auto.
    - inversion HV2 as [|? q ? pos2' Hq HV2']; subst. simpl.
      pose proof W_pos as HW.
      destruct n as [|n]; intros E; apply IH in E; auto; destruct E as (E1 & E2 & ->).
      + apply mixed_radix_inj in E2; [|lia|lia]. destruct E2 as [-> ->]. auto.
      + apply mixed_radix_inj in E2; [|apply Z.mod_pos_bound; lia|apply Z.mod_pos_bound; lia].
        apply mixed_radix_inj in E1; [|apply bcount_covers; lia|apply bcount_covers; lia].
        destruct E1 as [-> D]. destruct E2 as [-> M].
        assert (p = q).
        { rewrite (Z.div_mod p W), (Z.div_mod q W) by lia. rewrite D, M. reflexivity. }
        subst. auto.
  Qed.

  Lemma c_quot_pos a b : 0 <= a -> 0 < b -> c_quot a b = a / b.
  Proof. intros. apply Z.quot_div_nonneg; lia. Qed.

  Lemma reset_loop_ok : forall size n bser bnum,
    Forall (fun s => 0 < s) size -> 0 < bser -> 0 < bnum ->
    bser * wprod n size < 2 ^ 64 -> bnum * bprod n size < 2 ^ 64 ->
    reset_loop bit n size bser bnum = (bsizes n size, bser * wprod n size, bnum * bprod n size).
  Proof.
    pose proof W_pos as HW.
    induction size as [|s size IH]; intros n bser bnum HF H1 H2 H3 H4; simpl.
    - f_equal; [f_equal|]; ring.
    - inversion HF as [|? ? Hs HF']; subst. destruct n as [|n]; simpl in *.
      + pose proof (wprod_pos O size HF') as Hw.
        assert (s < 2 ^ 64) by nia.
        rewrite (wrap64_small s) by lia.
        rewrite (wrap64_small (bser * s)) by nia.
        pose proof (bprod_pos O size) as Hb.
        rewrite (wrap64_small (bnum * 1)) by nia.
        rewrite IH by (auto; nia). f_equal; [f_equal|]; ring.
      + pose proof (wprod_pos n size HF') as Hw.
        pose proof (bprod_pos n size) as Hb.
        pose proof (bcount_pos s) as Hbs.
        assert (E : c_quot ((if s <? block_width bit then block_width bit else s) + block_width bit - 1)
                      (block_width bit) = bcount s).
        { unfold block_width, bcount. rewrite c_quot_pos by (destruct (Z.ltb_spec s W); lia).
          f_equal. destruct (Z.ltb_spec s W); lia. }
        rewrite E. unfold block_width.
        assert (bcount s < 2 ^ 64) by nia.
        rewrite (wrap64_small (bcount s)) by lia.
        rewrite (wrap64_small (bser * W)) by nia.
        rewrite (wrap64_small (bnum * bcount s)) by nia.
        rewrite IH by (auto; nia). f_equal; [f_equal|]; ring.
  Qed.

  Lemma wprod_le_slots n size : Forall (fun s => 0 < s) size ->
    wprod n size <= slots W n size /\ bprod n size <= slots W n size.
  Proof.
    intros H. rewrite slots_prod. pose proof (wprod_pos n size H). pose proof (bprod_pos n size). nia.
  Qed.

  Lemma slots_ge_size n size : Forall (fun s => 0 < s) size ->
    forall s, In s size -> s <= slots W n size.
  Proof.
    pose proof W_pos as HW.
    revert n. induction size as [|a t IH]; intros n HF s HI; [contradiction|].
    inversion HF as [|? ? Ha HF']; subst.
    assert (Hp : forall m, 0 < slots W m t).
    { intros m. rewrite slots_prod. apply Z.mul_pos_pos; [apply wprod_pos; auto|apply bprod_pos]. }
    destruct n as [|n]; cbn [slots].
    - specialize (Hp O). destruct HI as [<-|HI]; [nia|]. specialize (IH O HF' s HI). nia.
    - specialize (Hp n).
      assert (a <= ((Z.max a W + W - 1) / W) * W).
      { pose proof (Z.div_mod (Z.max a W + W - 1) W ltac:(lia)).
        pose proof (Z.mod_pos_bound (Z.max a W + W - 1) W ltac:(lia)). nia. }
      assert (1 <= ((Z.max a W + W - 1) / W) * W) by lia.
      destruct HI as [<-|HI]; [nia|]. specialize (IH n HF' s HI). nia.
  Qed.
End Addr.

Section Maps.
  Context {V : Type} (nc : nat) (bit : Z).
  Hypothesis Hbit : 0 <= bit.
  Notation W := (2 ^ bit).

  (** Well-formedness established by [reset] and kept by everything else. *)
  Definition wf (g : gmap V) : Prop :=
    good_size W nc (g_size g) /\ g_bsize g = bsizes bit nc (g_size g) /\
    g_bser g = wprod bit nc (g_size g) /\ g_ser g = slots W nc (g_size g) /\
    g_ser g <= g_cap g.

  Lemma good_size_facts size : good_size W nc size ->
    0 < wprod bit nc size < 2 ^ 64 /\ 0 < bprod bit nc size < 2 ^ 64 /\
    0 < slots W nc size < 2 ^ 64.
  Proof.
    intros [HF HS].
    pose proof (wprod_pos bit Hbit nc size HF). pose proof (bprod_pos bit Hbit nc size).
    pose proof (wprod_le_slots bit Hbit nc size HF). rewrite (slots_prod bit) in *. nia.
  Qed.

  Definition pslot (size pos : list Z) : Z :=
    let '(ba, a) := addr_plain bit nc pos size 0 0 in ba * wprod bit nc size + a.

  Lemma valid_lt64 size pos : good_size W nc size -> valid size pos -> Forall (fun p => p < 2 ^ 64) pos.
  Proof.
    intros [HF HS] HV. 
    assert (H : Forall (fun s => s < 2 ^ 64) size).
    { apply Forall_forall. intros s HI. pose proof (slots_ge_size bit Hbit nc size HF s HI). lia. }
    clear HF HS. induction HV; constructor.
    - inversion H; subst. lia.
    - inversion H; subst. auto.
  Qed.

  Lemma pslot_range size pos : good_size W nc size -> valid size pos ->
    0 <= pslot size pos < slots W nc size.
  Proof.
    intros HG HV. destruct (good_size_facts size HG) as (H1 & H2 & H3).
    destruct (addr_loop_plain bit Hbit size pos nc 0 0 1 1) as (E & Ea & Eb); auto; try lia.
    { eapply valid_lt64; eauto. }
    unfold pslot. destruct (addr_plain bit nc pos size 0 0) as [ba a]. cbn [fst snd] in *.
    rewrite Z.mul_1_l in *. rewrite (slots_prod bit).
    pose proof (mul_bound ba (bprod bit nc size) (wprod bit nc size) ltac:(lia) ltac:(lia) a ltac:(lia)). lia.
  Qed.

  Lemma slot_pslot g pos : wf g -> valid (g_size g) pos -> slot nc bit g pos = pslot (g_size g) pos.
  Proof.
    intros (HG & Eb & Es & Er & Hc) HV.
    destruct (good_size_facts _ HG) as (H1 & H2 & H3).
    pose proof (pslot_range _ _ HG HV) as HR.
    destruct (addr_loop_plain bit Hbit (g_size g) pos nc 0 0 1 1) as (E & Ea & Ebb); auto; try lia.
    { eapply valid_lt64; eauto. }
    unfold slot. rewrite Eb, E, Es. unfold pslot in *.
    destruct (addr_plain bit nc pos (g_size g) 0 0) as [ba a]. cbn [fst snd] in *.
    rewrite Z.mul_1_l in *.
    assert (0 <= ba * wprod bit nc (g_size g)) by (apply Z.mul_nonneg_nonneg; lia).
    rewrite (wrap64_small (ba * _)) by lia. apply wrap64_small. lia.
  Qed.

  Lemma pslot_inj size p q : good_size W nc size -> valid size p -> valid size q ->
    pslot size p = pslot size q -> p = q.
  Proof.
    intros HG HP HQ. destruct (good_size_facts size HG) as (H1 & H2 & H3).
    destruct (addr_loop_plain bit Hbit size p nc 0 0 1 1) as (_ & Ea & _); auto; try lia.
    { eapply valid_lt64; eauto. }
    destruct (addr_loop_plain bit Hbit size q nc 0 0 1 1) as (_ & Eb & _); auto; try lia.
    { eapply valid_lt64; eauto. }
    unfold pslot.
    destruct (addr_plain bit nc p size 0 0) as [bp ap] eqn:Ep.
    destruct (addr_plain bit nc q size 0 0) as [bq aq] eqn:Eq. cbn [fst snd] in *. rewrite Z.mul_1_l in *.
    intros E. apply mixed_radix_inj in E; [|lia|lia]. destruct E as [-> ->].
    rewrite <- Eq in Ep. apply (addr_plain_inj bit Hbit) in Ep; auto. tauto.
  Qed.

  Lemma reset_wf size fresh (g : gmap V) : good_size W nc size -> wf (reset nc bit size fresh g).
  Proof.
    intros HG. destruct (good_size_facts size HG) as (H1 & H2 & H3).
    unfold reset. rewrite (reset_loop_ok bit Hbit) by (try apply HG; lia).
    rewrite !Z.mul_1_l. rewrite <- (slots_prod bit). rewrite wrap64_small by lia.
    destruct ((slots W nc size <? g_cap g / 2) || (g_cap g <? slots W nc size)) eqn:E;
      unfold wf; simpl; repeat split; try apply HG; lia.
  Qed.

  Lemma reset_size size fresh (g : gmap V) : g_size (reset nc bit size fresh g) = size.
  Proof.
    unfold reset. destruct (reset_loop bit nc size 1 1) as [[bs bser] bnum].
    destruct (_ || _); reflexivity.
  Qed.

  Variable ev : bool.

  Lemma write_valid g pos v : wf g -> valid (g_size g) pos ->
    write nc bit ev g pos v =
    Ok (mkGmap (g_size g) (g_bsize g) (g_ser g) (g_cap g) (g_bser g)
               (upd_buf (g_buf g) (pslot (g_size g) pos) v) (g_dummy g)).
  Proof.
    intros Hw HV. unfold write. rewrite slot_pslot by assumption.
    destruct Hw as (HG & Eb & Es & Er & Hc). pose proof (pslot_range _ _ HG HV).
    replace (g_ser g <=? pslot (g_size g) pos) with false by lia. rewrite andb_false_r.
    replace (pslot (g_size g) pos <? g_cap g) with true by lia. reflexivity.
  Qed.

  (** Contents of a well-formed map. *)
  Definition cell (g : gmap V) (pos : list Z) : V := g_buf g (pslot (g_size g) pos).

  Lemma foldM_writes (f : list Z -> list Z) (val : list Z -> V) :
    forall ps g, wf g -> (forall p, In p ps -> valid (g_size g) (f p)) ->
    exists g', foldM (fun g p => write nc bit ev g (f p) (val p)) ps g = Ok g' /\
      wf g' /\ g_size g' = g_size g /\
      forall (q : list Z), valid (g_size g) q ->
        (forall p, In p ps -> f p = q -> (forall p', In p' ps -> f p' = q -> val p' = val p) -> cell g' q = val p) /\
        ((forall p, In p ps -> f p <> q) -> cell g' q = cell g q).
  Proof.
    induction ps as [|p ps IH]; intros g Hw HP.
    - exists g. simpl. split; [reflexivity|]. split; [exact Hw|]. split; [reflexivity|].
      intros q Hq. split; [intros p []|reflexivity].
    - simpl. rewrite write_valid by (auto; apply HP; left; reflexivity). simpl.
      set (g1 := mkGmap _ _ _ _ _ _ _).
      assert (Hw1 : wf g1) by exact Hw.
      destruct (IH g1 Hw1) as (g' & E & Hw' & Hs' & Hc').
      { intros p' Hp'. apply HP. right. exact Hp'. }
      exists g'. split; [exact E|]. split; [exact Hw'|]. split; [exact Hs'|].
      intros q Hq. destruct (Hc' q Hq) as [C1 C2].
      assert (Hp : valid (g_size g) (f p)) by (apply HP; left; reflexivity).
      destruct (in_dec (list_eq_dec Z.eq_dec) q (map f ps)) as [HI|HN].
      + apply in_map_iff in HI. destruct HI as (p2 & Ep2 & Hp2). split.
        * intros p3 Hp3 Ep3 Hall.
          rewrite <- (Hall p2 (or_intror Hp2) Ep2).
          apply C1; auto. intros p' Hp' Ep'.
          rewrite (Hall p' (or_intror Hp') Ep'). symmetry. apply Hall; auto.
        * intros Hno. exfalso. apply (Hno p2); auto.
      + assert (Hno : forall p', In p' ps -> f p' <> q).
        { intros p' Hp' Ep'. apply HN. apply in_map_iff. exists p'. auto. }
        specialize (C2 Hno). split.
        * intros p3 [<-|Hp3] Ep3 Hall.
          -- rewrite C2. unfold cell, g1; simpl. unfold upd_buf. rewrite Ep3, Z.eqb_refl. reflexivity.
          -- exfalso. eapply Hno; eauto.
        * intros Hno2. rewrite C2. unfold cell, g1; simpl. unfold upd_buf.
          destruct (Z.eqb_spec (pslot (g_size g) q) (pslot (g_size g) (f p))) as [E1|E1]; [|reflexivity].
          exfalso. apply pslot_inj in E1; auto; [|apply Hw]. apply (Hno2 p); [left; reflexivity|auto].
  Qed.

  Lemma box3_in mn mx p : length mn = 3%nat -> length mx = 3%nat ->
    In p (box3 mn mx) <-> in_boxb mn mx p = true.
  Proof.
    intros L1 L2.
    destruct mn as [|x0 [|y0 [|z0 [|? ?]]]]; try discriminate.
    destruct mx as [|x1 [|y1 [|z1 [|? ?]]]]; try discriminate.
    cbn [box3]. rewrite in_flat_map. split.
    - intros (x & Hx & H). apply in_flat_map in H. destruct H as (y & Hy & H).
      apply in_map_iff in H. destruct H as (z & <- & Hz).
      apply in_range_incl in Hx. apply in_range_incl in Hy. apply in_range_incl in Hz.
      simpl. lia.
    - intros H. destruct p as [|x [|y [|z [|? ?]]]]; simpl in H; try lia.
      exists x. split; [apply in_range_incl; lia|]. apply in_flat_map.
      exists y. split; [apply in_range_incl; lia|]. apply in_map_iff.
      exists z. split; [reflexivity|apply in_range_incl; lia].
  Qed.

  Lemma clear_partially_ok g zero mn mx : wf g -> length (g_size g) = 3%nat ->
    length mn = 3%nat -> length mx = 3%nat ->
    (forall p, in_boxb mn mx p = true -> valid (g_size g) p) ->
    exists g', clear_partially nc bit ev g zero mn mx = Ok g' /\ wf g' /\ g_size g' = g_size g /\
      forall q, valid (g_size g) q -> cell g' q = if in_boxb mn mx q then zero else cell g q.
  Proof.
    intros Hw L3 L1 L2 HB. unfold clear_partially. rewrite L3. simpl.
    destruct (foldM_writes (fun p => p) (fun _ => zero) (box3 mn mx) g Hw) as (g' & E & Hw' & Hs & Hc).
    { intros p Hp. apply HB. apply box3_in in Hp; auto. }
    exists g'. split; [exact E|]. split; [exact Hw'|]. split; [exact Hs|].
    intros q Hq. destruct (Hc q Hq) as [C1 C2].
    destruct (in_boxb mn mx q) eqn:Ein.
    - apply (C1 q); auto. apply box3_in; auto.
    - apply C2. intros p Hp ->. apply box3_in in Hp; auto. congruence.
  Qed.

  Lemma foldM_ext_in {A S} (P : S -> Prop) (f g : S -> A -> outcome S) l s :
    (forall s a, In a l -> P s -> f s a = g s a) ->
    (forall s a s', In a l -> P s -> g s a = Ok s' -> P s') -> P s ->
    foldM f l s = foldM g l s.
  Proof.
    revert s. induction l as [|a l IH]; intros s H1 H2 Hs; simpl; [reflexivity|].
    rewrite H1 by (auto; left; reflexivity).
    destruct (g s a) as [s'|] eqn:E; simpl; [|reflexivity].
    apply IH.
    - intros. apply H1; auto. right; auto.
    - intros. eapply H2; eauto. right; auto.
    - eapply H2; eauto. left; reflexivity.
  Qed.

  Variable vmax : V.

  (** Reading a valid cell. *)
  Lemma read_valid g pos : wf g -> valid (g_size g) pos ->
    read nc bit ev vmax g pos = Ok (g_buf g (pslot (g_size g) pos)).
  Proof.
    intros Hw HV. unfold read. rewrite slot_pslot by assumption.
    destruct Hw as (HG & Eb & Es & Er & Hc). pose proof (pslot_range _ _ HG HV).
    replace (g_ser g <=? pslot (g_size g) pos) with false by lia. rewrite andb_false_r.
    replace (pslot (g_size g) pos <? g_cap g) with true by lia. reflexivity.
  Qed.

  Lemma copy_writes (f : list Z -> list Z) src ps g :
    wf src -> (forall p, In p ps -> valid (g_size src) p) ->
    foldM (fun g p => do v <- read nc bit ev vmax src p; write nc bit ev g (f p) v) ps g =
    foldM (fun g p => write nc bit ev g (f p) (cell src p)) ps g.
  Proof.
    intros Hw HP. apply (foldM_ext_in (fun _ => True)); auto.
    intros s p Hp _. rewrite read_valid by auto. reflexivity.
  Qed.

  Lemma copy_partially_ok g src mn mx : wf g -> wf src -> length (g_size g) = 3%nat ->
    length mn = 3%nat -> length mx = 3%nat ->
    (forall p, in_boxb mn mx p = true -> valid (g_size g) p /\ valid (g_size src) p) ->
    exists g', copy_partially nc bit ev vmax g src mn mx = Ok g' /\ wf g' /\ g_size g' = g_size g /\
      forall q, valid (g_size g) q -> cell g' q = if in_boxb mn mx q then cell src q else cell g q.
  Proof.
    intros Hw Hws L3 L1 L2 HB. unfold copy_partially. rewrite L3. simpl.
    rewrite (copy_writes (fun p => p)); auto.
    2:{ intros p Hp. apply HB. apply box3_in in Hp; auto. }
    destruct (foldM_writes (fun p => p) (cell src) (box3 mn mx) g Hw) as (g' & E & Hw' & Hs & Hc).
    { intros p Hp. apply HB. apply box3_in in Hp; auto. }
    exists g'. split; [exact E|]. split; [exact Hw'|]. split; [exact Hs|].
    intros q Hq. destruct (Hc q Hq) as [C1 C2].
    destruct (in_boxb mn mx q) eqn:Ein.
    - apply (C1 q); auto. { apply box3_in; auto. } intros; subst; auto.
    - apply C2. intros p Hp ->. apply box3_in in Hp; auto. congruence.
  Qed.

  Lemma in_boxb_length mn mx p : in_boxb mn mx p = true -> length p = length mn.
  Proof.
    revert mx p. induction mn as [|a mn IH]; intros [|b mx] [|x p]; simpl; try discriminate; auto.
    intros H. f_equal. apply (IH mx). lia.
  Qed.

  Lemma plus_minus p o : length p = length o -> minus (plus p o) o = p.
  Proof.
    revert o. induction p as [|x p IH]; intros [|y o]; simpl; try discriminate; auto.
    intros H. f_equal; [ring|apply IH; lia].
  Qed.
  Lemma minus_plus p o : length p = length o -> plus (minus p o) o = p.
  Proof.
    revert o. induction p as [|x p IH]; intros [|y o]; simpl; try discriminate; auto.
    intros H. f_equal; [ring|apply IH; lia].
  Qed.
  Lemma minus_length a b : length a = length b -> length (minus a b) = length a.
  Proof. revert b. induction a; intros [|? b]; simpl; try discriminate; auto. Qed.
  Lemma vadd_plus a b : vadd a b = plus a b.
  Proof. revert b. induction a; intros [|? b]; simpl; congruence. Qed.
  Lemma vsub_minus a b : vsub a b = minus a b.
  Proof. revert b. induction a; intros [|? b]; simpl; congruence. Qed.

  Lemma copy_partially_to_ok g dst src mn mx : wf g -> wf src -> length (g_size g) = 3%nat ->
    length dst = 3%nat -> length mn = 3%nat -> length mx = 3%nat ->
    (forall p, in_boxb mn mx p = true ->
       valid (g_size src) p /\ valid (g_size g) (plus p (minus dst mn))) ->
    exists g', copy_partially_to nc bit ev vmax g dst src mn mx = Ok g' /\ wf g' /\ g_size g' = g_size g /\
      forall q, valid (g_size g) q ->
        cell g' q = if in_boxb mn mx (minus q (minus dst mn))
                    then cell src (minus q (minus dst mn)) else cell g q.
  Proof.
    intros Hw Hws L3 Ld L1 L2 HB. unfold copy_partially_to. rewrite L3. simpl.
    set (o := vsub dst mn).
    assert (Eo : o = minus dst mn) by apply vsub_minus.
    assert (Lo : length o = 3%nat) by (rewrite Eo, minus_length; lia).
    rewrite (copy_writes (fun p => vadd p o)); auto.
    2:{ intros p Hp. apply HB. apply box3_in in Hp; auto. }
    destruct (foldM_writes (fun p => vadd p o) (cell src) (box3 mn mx) g Hw) as (g' & E & Hw' & Hs & Hc).
    { intros p Hp. rewrite vadd_plus, Eo. apply HB. apply box3_in in Hp; auto. }
    exists g'. split; [exact E|]. split; [exact Hw'|]. split; [exact Hs|].
    intros q Hq. destruct (Hc q Hq) as [C1 C2]. rewrite <- Eo.
    assert (Lq : length q = 3%nat) by (rewrite <- L3; apply valid_length; exact Hq).
    destruct (in_boxb mn mx (minus q o)) eqn:Ein.
    - apply (C1 (minus q o)).
      + apply box3_in; auto.
      + rewrite vadd_plus. apply minus_plus. lia.
      + intros p' Hp' Ep'. f_equal. apply box3_in in Hp'; auto.
        pose proof (in_boxb_length _ _ _ Hp').
        rewrite <- Ep', vadd_plus, plus_minus; [reflexivity|lia].
    - apply C2. intros p Hp Ep. apply box3_in in Hp; auto.
      pose proof (in_boxb_length _ _ _ Hp).
      rewrite <- Ep, vadd_plus, plus_minus in Ein; [congruence|lia].
  Qed.

  Lemma clear_ok g zero : wf g ->
    exists g', clear g zero = Ok g' /\ wf g' /\ g_size g' = g_size g /\
      forall q, valid (g_size g) q -> cell g' q = zero.
  Proof.
    intros Hw. pose proof Hw as (HG & Eb & Es & Er & Hc). unfold clear.
    replace (g_cap g <? g_ser g) with false by lia.
    eexists. split; [reflexivity|]. split; [exact Hw|]. split; [reflexivity|].
    intros q Hq. unfold cell; simpl. pose proof (pslot_range _ _ HG Hq).
    replace ((0 <=? pslot (g_size g) q) && (pslot (g_size g) q <? g_ser g)) with true by lia.
    reflexivity.
  Qed.

  Lemma assign_ok g src fresh : wf src ->
    exists g', assign nc bit g src fresh = Ok g' /\ wf g' /\ g_size g' = g_size src /\
      forall q, valid (g_size src) q -> cell g' q = cell src q.
  Proof.
    intros Hw. pose proof Hw as (HG & Eb & Es & Er & Hc). unfold assign.
    pose proof (reset_wf (g_size src) fresh g HG) as H1.
    pose proof (reset_size (g_size src) fresh g) as Hs.
    set (g1 := reset nc bit (g_size src) fresh g) in *.
    destruct H1 as (HG1 & Eb1 & Es1 & Er1 & Hc1). rewrite Hs in *.
    replace (g_cap g1 <? g_ser g1) with false by lia.
    replace (g_cap src <? g_ser g1) with false by lia. simpl.
    eexists. split; [reflexivity|]. split.
    { unfold wf; simpl. repeat split; auto; apply HG. }
    split; [reflexivity|]. intros q Hq. unfold cell; simpl. pose proof (pslot_range _ _ HG Hq).
    replace ((0 <=? pslot (g_size src) q) && (pslot (g_size src) q <? g_ser g1)) with true by lia.
    reflexivity.
  Qed.

  Variable nonneg : V -> bool.

  Lemma clear_positive_ok g zero : wf g ->
    exists g', clear_positive nonneg g zero = Ok g' /\ wf g' /\ g_size g' = g_size g /\
      forall q, valid (g_size g) q -> cell g' q = if nonneg (cell g q) then zero else cell g q.
  Proof.
    intros Hw. pose proof Hw as (HG & Eb & Es & Er & Hc). unfold clear_positive.
    replace (g_cap g <? g_ser g) with false by lia.
    eexists. split; [reflexivity|]. split; [exact Hw|]. split; [reflexivity|].
    intros q Hq. unfold cell; simpl. pose proof (pslot_range _ _ HG Hq).
    replace ((0 <=? pslot (g_size g) q) && (pslot (g_size g) q <? g_ser g)) with true by lia.
    reflexivity.
  Qed.

  (** Refinement relation between concrete and abstract worlds. *)
  Definition R (w : @world V) (aw : aworld V) : Prop :=
    forall i sz f, aw i = Some (sz, f) ->
      wf (w i) /\ g_size (w i) = sz /\
      forall p v, valid sz p -> f p = Some v -> cell (w i) p = v.

  Lemma R_set w aw i g sz f : R w aw -> wf g -> g_size g = sz ->
    (forall p v, valid sz p -> f p = Some v -> cell g p = v) ->
    R (wset w i g) (aset aw i (sz, f)).
  Proof.
    intros HR Hw Hs Hc j sz' f' E. unfold wset, aset in *.
    destruct (Nat.eqb_spec j i) as [->|Hne].
    - injection E as <- <-. auto.
    - apply HR. exact E.
  Qed.

  Lemma step_refines w aw o fresh aw' : R w aw -> astep nonneg W nc aw o aw' ->
    exists w', cstep nonneg nc bit ev vmax w o fresh = Ok w' /\ R w' aw'.
  Proof.
    intros HR HS. destruct HS as
      [aw i size HG|aw i v sz f E|aw i v sz f E|aw i pos v sz f E HV|aw i v mn mx sz f E L3 L1 L2 HB
      |aw i j mn mx sz f sz' f' Hne Ei Ej L3 L1 L2 HB
      |aw i j dst mn mx sz f sz' f' Hne Ei Ej L3 Ld L1 L2 HB|aw i j sz f Hne E]; simpl.
    - eexists. split; [reflexivity|]. apply R_set; auto.
      + apply reset_wf; auto.
      + apply reset_size.
      + discriminate.
    - destruct (HR i sz f E) as (Hw & Hs & Hc).
      destruct (clear_ok (w i) v Hw) as (g' & Eg & Hw' & Hs' & Hc'). rewrite Eg. simpl.
      eexists. split; [reflexivity|]. apply R_set; auto; [congruence|].
      intros p x Hv Ex. injection Ex as <-. apply Hc'. rewrite Hs. exact Hv.
    - destruct (HR i sz f E) as (Hw & Hs & Hc).
      destruct (clear_positive_ok (w i) v Hw) as (g' & Eg & Hw' & Hs' & Hc'). rewrite Eg. simpl.
      eexists. split; [reflexivity|]. apply R_set; auto; [congruence|].
      intros p x Hv Ex. rewrite Hc' by (rewrite Hs; exact Hv).
      destruct (f p) as [y|] eqn:Ef; [|discriminate]. injection Ex as <-.
      rewrite (Hc p y Hv Ef). reflexivity.
    - destruct (HR i sz f E) as (Hw & Hs & Hc). subst sz.
      rewrite write_valid by assumption. simpl.
      eexists. split; [reflexivity|]. apply R_set; auto.
      intros p x Hv Ex. unfold cell; simpl. unfold upd_buf.
      destruct (list_eq_dec Z.eq_dec p pos) as [->|Hp].
      + injection Ex as <-. rewrite Z.eqb_refl. reflexivity.
      + destruct (Z.eqb_spec (pslot (g_size (w i)) p) (pslot (g_size (w i)) pos)) as [E1|E1].
        * apply pslot_inj in E1; auto; [contradiction|apply Hw].
        * apply Hc; auto.
    - destruct (HR i sz f E) as (Hw & Hs & Hc). subst sz.
      destruct (clear_partially_ok (w i) v mn mx) as (g' & Eg & Hw' & Hs' & Hc'); auto.
      rewrite Eg. simpl. eexists. split; [reflexivity|]. apply R_set; auto.
      intros p x Hv Ex. rewrite Hc' by exact Hv.
      destruct (in_boxb mn mx p); [congruence|auto].
    - destruct (HR i sz f Ei) as (Hw & Hs & Hc). destruct (HR j sz' f' Ej) as (Hwj & Hsj & Hcj).
      subst sz sz'.
      destruct (copy_partially_ok (w i) (w j) mn mx) as (g' & Eg & Hw' & Hs' & Hc'); auto.
      rewrite Eg. simpl. eexists. split; [reflexivity|]. apply R_set; auto.
      intros p x Hv Ex. rewrite Hc' by exact Hv.
      destruct (in_boxb mn mx p) eqn:Ein; [|auto]. apply Hcj; auto. apply HB; auto.
    - destruct (HR i sz f Ei) as (Hw & Hs & Hc). destruct (HR j sz' f' Ej) as (Hwj & Hsj & Hcj).
      subst sz sz'.
      destruct (copy_partially_to_ok (w i) dst (w j) mn mx) as (g' & Eg & Hw' & Hs' & Hc'); auto.
      rewrite Eg. simpl. eexists. split; [reflexivity|]. apply R_set; auto.
      intros p x Hv Ex. rewrite Hc' by exact Hv.
      destruct (in_boxb mn mx (minus p (minus dst mn))) eqn:Ein; [|auto].
      apply Hcj; auto. apply HB; auto.
    - destruct (HR j sz f E) as (Hw & Hs & Hc). subst sz.
      destruct (assign_ok (w i) (w j) fresh Hw) as (g' & Eg & Hw' & Hs' & Hc'). rewrite Eg. simpl.
      eexists. split; [reflexivity|]. apply R_set; auto.
      intros p x Hv Ex. rewrite Hc' by exact Hv. auto.
  Qed.

  Lemma run_refines : forall l w aw aw', R w aw ->
    aruns nonneg W nc aw (map fst l) aw' ->
    exists w', crun nonneg nc bit ev vmax w l = Ok w' /\ R w' aw'.
  Proof.
    induction l as [|[o fresh] l IH]; intros w aw aw' HR HA; simpl in *.
    - inversion HA; subst. exists w. auto.
    - inversion HA as [|? ? aw1 ? ? HS HA']; subst.
      destruct (step_refines w aw o fresh aw1 HR HS) as (w1 & E1 & HR1). rewrite E1. simpl.
      eapply IH; eauto.
  Qed.

  Lemma R_init junk : R (world_init vmax junk) (fun _ => None).
  Proof. intros i sz f E. discriminate. Qed.

  Lemma R_read w aw i sz f p v : R w aw -> aw i = Some (sz, f) -> valid sz p -> f p = Some v ->
    read nc bit ev vmax (w i) p = Ok v.
  Proof.
    intros HR E HV Ef. destruct (HR i sz f E) as (Hw & Hs & Hc). subst sz.
    rewrite read_valid by assumption. f_equal. apply Hc; auto.
  Qed.
End Maps.

(** validate *)
Lemma validate_loop_iff : forall size pos n tol, length size = length pos ->
  validate_loop n size pos tol = true <->
  forall i s p, nth_error size i = Some s -> nth_error pos i = Some p ->
    if (i <? n)%nat then tol <= p < s - tol else 0 <= p < s.
Proof.
  induction size as [|s size IH]; intros [|p pos] n tol HL; try discriminate; simpl.
  - split; [|reflexivity]. intros _ i ? ? H. destruct i; discriminate.
  - injection HL as HL. destruct n as [|n].
    + destruct ((p <? 0) || (s <=? p)) eqn:E.
      * split; [discriminate|]. intros H. specialize (H 0%nat s p eq_refl eq_refl). simpl in H. lia.
      * rewrite IH by exact HL. split.
        -- intros H [|i] s0 p0 H1 H2; simpl in *; [injection H1 as <-; injection H2 as <-; lia|].
           exact (H i s0 p0 H1 H2).
        -- intros H i s0 p0 H1 H2. exact (H (S i) s0 p0 H1 H2).
    + destruct ((p <? tol) || (s - tol <=? p)) eqn:E.
      * split; [discriminate|]. intros H. specialize (H 0%nat s p eq_refl eq_refl). simpl in H. lia.
      * rewrite IH by exact HL. split.
        -- intros H [|i] s0 p0 H1 H2; simpl in *; [injection H1 as <-; injection H2 as <-; lia|].
           exact (H i s0 p0 H1 H2).
        -- intros H i s0 p0 H1 H2. exact (H (S i) s0 p0 H1 H2).
Qed.

Lemma valid_nth size pos : length size = length pos ->
  valid size pos <->
  forall i s p, nth_error size i = Some s -> nth_error pos i = Some p -> 0 <= p < s.
Proof.
  revert pos. induction size as [|s size IH]; intros [|p pos] HL; try discriminate.
  - split; [|constructor]. intros _ i ? ? H. destruct i; discriminate.
  - injection HL as HL. split.
    + intros H. inversion H; subst. intros [|i] s0 p0 H1 H2; simpl in *.
      * injection H1 as <-. injection H2 as <-. assumption.
      * apply (proj1 (IH pos HL) ltac:(assumption) i s0 p0 H1 H2).
    + intros H. constructor.
      * apply (H 0%nat); reflexivity.
      * apply IH; auto. intros i s0 p0 H1 H2. exact (H (S i) s0 p0 H1 H2).
Qed.
