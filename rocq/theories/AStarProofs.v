From Coq Require Import ZifyBool ZifyNat Permutation.
From Verif Require Import Common CyclicVec CyclicVecSpec CyclicVecProofs GridMapSpec GridMapProofs
  CostAlg AStar AStarSpec.
Local Open Scope Z_scope.

(** ** Association lists and queues *)
Lemma lookup_erase k k' l : lookup k (erase k' l) = if vec_dec k k' then None else lookup k l.
Proof.
  induction l as [|[a b] l IH]; simpl.
  - destruct (vec_dec k k'); reflexivity.
  - destruct (vec_dec a k') as [->|N]; simpl.
    + rewrite IH. destruct (vec_dec k k') as [->|N2]; [reflexivity|].
      destruct (vec_dec k' k); [congruence|reflexivity].
    + destruct (vec_dec a k) as [->|N2].
      * destruct (vec_dec k k'); [congruence|reflexivity].
      * exact IH.
Qed.

Lemma lookup_insert k v k' l : lookup k (insert k' v l) = if vec_dec k k' then Some v else lookup k l.
Proof.
  unfold insert. simpl. destruct (vec_dec k' k) as [->|N].
  - destruct (vec_dec k k); [reflexivity|congruence].
  - rewrite lookup_erase. destruct (vec_dec k k'); [congruence|reflexivity].
Qed.

Lemma remove_nth_perm {A} n (l : list A) a r : remove_nth n l = Some (a, r) -> Permutation l (a :: r).
Proof.
  revert n r. induction l as [|b l IH]; intros n r; simpl; [discriminate|].
  destruct n as [|n].
  - intros E. injection E as <- <-. reflexivity.
  - destruct (remove_nth n l) as [[c t]|] eqn:E; [|discriminate].
    intros F. injection F as -> <-. apply IH in E.
    rewrite E. apply perm_swap.
Qed.

Lemma remove_nth_some {A} n (l : list A) : (n < length l)%nat -> exists a r, remove_nth n l = Some (a, r).
Proof.
  revert n. induction l as [|b l IH]; intros n H; simpl in *; [lia|].
  destruct n as [|n]; [eauto|].
  destruct (IH n) as (a & r & E); [lia|]. rewrite E. eauto.
Qed.

Lemma take_at_perm {A} n (l : list A) a r : take_at n l = Some (a, r) -> Permutation l (a :: r).
Proof. apply remove_nth_perm. Qed.

Lemma take_at_none {A} n (l : list A) : take_at n l = None -> l = [].
Proof.
  intros H. destruct l as [|b l]; [reflexivity|]. exfalso.
  unfold take_at in H.
  destruct (remove_nth_some (n mod length (b :: l)) (b :: l)) as (a & r & E).
  - apply Nat.mod_upper_bound. simpl; lia.
  - congruence.
Qed.

Lemma vec_add_plus a b : vec_add a b = plus a b.
Proof.
  unfold vec_add. revert b. induction a as [|x a IH]; intros [|y b]; simpl; try reflexivity.
  rewrite IH. reflexivity.
Qed.

Lemma plus_length a b : length a = length b -> length (plus a b) = length a.
Proof. revert b. induction a; intros [|? b]; simpl; try discriminate; auto. Qed.

Lemma plus_nth a b i x : nth_error (plus a b) i = Some x ->
  exists y z, nth_error a i = Some y /\ nth_error b i = Some z /\ x = y + z.
Proof.
  revert b i. induction a as [|p a IH]; intros [|q b] i H; simpl in *; try (destruct i; discriminate).
  destruct i as [|i]; simpl in *.
  - injection H as <-. eauto.
  - apply IH. exact H.
Qed.

Lemma Forall_nth {A} (P : A -> Prop) l i x : Forall P l -> nth_error l i = Some x -> P x.
Proof. intros H E. rewrite Forall_forall in H. apply H. eapply nth_error_In; eauto. Qed.

(** A position produced by lines 320-323 of grid_astar.h. *)
Lemma next_in_map nc size p d next :
  (nc <= length size)%nat -> Forall (fun s => 0 < s <= 2 ^ 30) size ->
  valid size p -> length d = length size -> Forall (fun x => Z.abs x <= 2 ^ 30) d ->
  cycleUnsigned nc (vec_add p d) size = Ok next ->
  canon unsigned_range nc (plus p d) size next /\
  (isExceeded nc next size = false <-> valid size next).
Proof.
  intros Hnc Hsz Hp Ld Hd E. rewrite vec_add_plus in E.
  pose proof (valid_length size p Hp) as Lp.
  assert (Lpd : length (plus p d) = length size) by (rewrite plus_length; lia).
  assert (Hpos : forall i r, (nc <= i)%nat -> nth_error size i = Some r -> 0 < r).
  { intros i r _ Hn. apply (Forall_nth _ _ _ _ Hsz) in Hn. lia. }
  apply cycleUnsigned_iff in E; auto. split; [exact E|].
  destruct E as [Ln HE].
  assert (Hn : forall i x, nth_error next i = Some x ->
     exists s, nth_error size i = Some s /\ 0 < s <= 2 ^ 30 /\
       (if (i <? nc)%nat then - 2 ^ 30 <= x < 2 ^ 31 else 0 <= x < s)).
  { intros i x Hx.
    assert (Hi : (i < length size)%nat).
    { rewrite <- Lpd, <- Ln. apply nth_error_Some. congruence. }
    destruct (nth_error size i) as [s|] eqn:Es; [|apply nth_error_None in Es; lia].
    destruct (nth_error (plus p d) i) as [e|] eqn:Ee; [|apply nth_error_None in Ee; lia].
    exists s. split; [reflexivity|]. pose proof (Forall_nth _ _ _ _ Hsz Es) as Hs.
    split; [exact Hs|]. specialize (HE i e s x Ee Es Hx).
    destruct (i <? nc)%nat.
    - subst e. apply plus_nth in Ee. destruct Ee as (y & z & Ey & Ez & ->).
      pose proof (Forall_nth _ _ _ _ Hd Ez). cbv beta in *.
      pose proof (proj1 (valid_nth size p (eq_sym Lp)) Hp i s y Es Ey). lia.
    - destruct HE as [_ HR]. exact HR. }
  rewrite isExceeded_false_iff.
  - unfold inside_first. rewrite valid_nth by lia. split.
    + intros H i s x Hs Hx. destruct (Hn i x Hx) as (s' & Es & Hs' & HR).
      rewrite Hs in Es. injection Es as <-.
      destruct (Nat.ltb_spec i nc) as [Hi|Hi]; [exact (H i x s Hi Hx Hs)|exact HR].
    + intros H i x s _ Hx Hs. exact (H i s x Hs Hx).
  - lia.
  - apply Forall_forall. intros x HI. apply In_nth_error in HI. destruct HI as [i Hi].
    destruct (Hn i x Hi) as (s & _ & Hs & HR). unfold int32. destruct (i <? nc)%nat; lia.
  - eapply Forall_impl; [|exact Hsz]. cbv beta. unfold int32. intros; lia.
Qed.

Lemma next_total nc size p d :
  (nc <= length size)%nat -> Forall (fun s => 0 < s <= 2 ^ 30) size ->
  length p = length size -> length d = length size ->
  exists next, cycleUnsigned nc (vec_add p d) size = Ok next.
Proof.
  intros Hnc Hsz Lp Ld. unfold cycleUnsigned. apply cycleWith_total.
  - intros e r Hr. destruct (cycleUnsignedElement_spec e r Hr) as (x & E & _). eauto.
  - rewrite vec_add_plus, plus_length; lia.
  - intros i r _ Hn. apply (Forall_nth _ _ _ _ Hsz) in Hn. lia.
Qed.

Lemma in_map_valid size p : in_map size p = true <-> valid size p.
Proof.
  unfold in_map. revert size. induction p as [|a p IH]; intros [|s size]; simpl.
  - split; [constructor|reflexivity].
  - split; [discriminate|]. intros H. inversion H.
  - split; [discriminate|]. intros H. inversion H.
  - specialize (IH size). rewrite !andb_true_iff in *. split.
    + intros [H1 [H2 H3]]. constructor; [lia|]. apply IH. split; [lia|exact H3].
    + intros H. inversion H as [|? ? ? ? Ha Hv]; subst. apply IH in Hv. destruct Hv as [H1 H2].
      repeat split; try lia. exact H2.
Qed.

Lemma set_g_eq {F} (g : vec -> F) t c : set_g g t c t = c.
Proof. unfold set_g. destruct (vec_dec t t); congruence. Qed.
Lemma set_g_neq {F} (g : vec -> F) t c p : p <> t -> set_g g t c p = g p.
Proof. intros H. unfold set_g. destruct (vec_dec p t); congruence. Qed.

Section Sound.
  Context {F : Type} (K : cost_ops F) (L : cost_laws K) (nc : nat) (size : vec) (M : @smodel F).
  Variables (ssn : list (vec * F)) (e : vec).
  Hypothesis Hnc : (nc <= length size)%nat.
  Hypothesis Hsz : Forall (fun s => 0 < s <= 2 ^ 30) size.
  Hypothesis Hmod : forall p ss e d, In d (m_searchGrids M p ss e) ->
       length d = length size /\ Forall (fun x => Z.abs x <= 2 ^ 30) d.

  Notation le a b := (fleb K a b = true).
  Notation lt a b := (fltb K a b = true).
  Notation Mv := (move K nc size M ssn e).

  Definition isS (p : vec) : Prop := exists c, In (p, c) ssn.

  Lemma isS_dec p : {isS p} + {~ isS p}.
  Proof using Type.
    unfold isS. induction ssn as [|[q c] l IH].
    - right. intros [c []].
    - destruct (vec_dec q p) as [->|N].
      + left. exists c. left. reflexivity.
      + destruct IH as [I|I].
        * left. destruct I as [c' I]. exists c'. right. exact I.
        * right. intros [c' [E|I']]; [congruence|]. apply I. eauto.
  Defined.

  (** Chain of parents from a cell up to a start cell, listed from the start. *)
  Inductive chain (par : list (vec * vec)) : vec -> list vec -> Prop :=
  | chain_start s : isS s -> chain par s [s]
  | chain_step p q l : ~ isS p -> lookup p par = Some q -> chain par q l -> chain par p (l ++ [p]).

  Definition reached (par : list (vec * vec)) (p : vec) : Prop := isS p \/ lookup p par <> None.

  Definition label_ok (gr : vec -> F) (par : list (vec * vec)) (q : vec) (c : F) : Prop :=
    isS q \/ (lookup q par <> None /\ le (gr q) c).

  Definition entry_ok (gr : vec -> F) (par : list (vec * vec)) (en : @entry F) : Prop :=
    label_ok gr par (en_v en) (en_raw en) /\ le (fzero K) (en_raw en) /\ valid size (en_v en).

  Record Inv (gr : vec -> F) (s : @sstate F) : Prop := mkInv {
    inv_parent : forall p q, ~ isS p -> lookup p (st_parents s) = Some q ->
        Mv q p /\ le (fzero K) (gr p) /\ (st_g s p = gr p \/ st_g s p = fneg1 K) /\
        label_ok gr (st_parents s) q (gr p);
    inv_unreached : forall p, ~ isS p -> lookup p (st_parents s) = None -> st_g s p = fmax K;
    inv_open : forall en, In en (st_open s) -> entry_ok gr (st_parents s) en;
    inv_chain : forall p, reached (st_parents s) p -> exists l, chain (st_parents s) p l;
    inv_better : reached (st_parents s) (st_better s)
  }.

  Definition upd_ok (gr : vec -> F) (par : list (vec * vec)) (u : update) : Prop :=
    Mv (up_from u) (up_to u) /\ le (fzero K) (up_cost u) /\
    label_ok gr par (up_from u) (up_cost u).

  (** Labels only go down and the parent table only grows. *)
  Definition extends (gr gr' : vec -> F) (par par' : list (vec * vec)) : Prop :=
    (forall p, lookup p par <> None -> lookup p par' <> None) /\
    (forall p, ~ isS p -> lookup p par <> None -> forall c, le (gr p) c -> le (gr' p) c).

  Lemma label_ok_ext gr gr' par par' q c : extends gr gr' par par' ->
    label_ok gr par q c -> label_ok gr' par' q c.
  Proof.
    intros [E1 E2] [H|[H1 H2]].
    - left. exact H.
    - destruct (isS_dec q) as [I|I]; [left; exact I|]. right. split; [auto|]. apply E2; auto.
  Qed.
  Lemma upd_ok_ext gr gr' par par' u : extends gr gr' par par' -> upd_ok gr par u -> upd_ok gr' par' u.
  Proof. intros E (H1 & H2 & H3). repeat split; auto; try apply H1. eapply label_ok_ext; eauto. Qed.
  Lemma entry_ok_ext gr gr' par par' u : extends gr gr' par par' -> entry_ok gr par u -> entry_ok gr' par' u.
  Proof. intros E (H1 & H2 & H3). repeat split; auto. eapply label_ok_ext; eauto. Qed.
  Lemma extends_refl gr par : extends gr gr par par.
  Proof. split; auto. Qed.
  Lemma extends_trans g1 g2 g3 p1 p2 p3 :
    extends g1 g2 p1 p2 -> extends g2 g3 p2 p3 -> extends g1 g3 p1 p3.
  Proof. intros [A B] [C D]. split; auto. Qed.
  Lemma reached_ext gr gr' par par' p : extends gr gr' par par' -> reached par p -> reached par' p.
  Proof. intros [A B] [H|H]; [left|right]; auto. Qed.

  Lemma le_refl_of_lt a b : lt a b -> le a a.
  Proof. intros H. eapply (lw_le_refl_l _ L). apply (lw_lt_le _ L). exact H. Qed.

  Lemma not_lt_neg1 c : le (fzero K) c -> fltb K c (fneg1 K) = false.
  Proof.
    intros H. destruct (fltb K c (fneg1 K)) eqn:E; [|reflexivity]. exfalso.
    pose proof (lw_neg1 _ L) as N.
    assert (lt c (fzero K)).
    { eapply (lw_lt_le_trans _ L); [exact E|]. apply (lw_lt_le _ L). exact N. }
    pose proof (lw_le_lt_trans _ L _ _ _ H H0) as Q. rewrite (lw_lt_irrefl _ L) in Q. discriminate.
  Qed.

  (** Along a chain labels do not increase towards the start. *)
  Lemma chain_labels gr s : Inv gr s -> forall q l, chain (st_parents s) q l ->
    forall p, In p l -> ~ isS p -> isS q \/ le (gr p) (gr q).
  Proof.
    intros HI q l C. induction C as [t Ht|q q' l Hq Eq C IH]; intros p HIn Hp.
    - left. exact Ht.
    - destruct (inv_parent _ _ HI q q' Hq Eq) as (_ & H0 & _ & HL).
      right. apply in_app_or in HIn. destruct HIn as [HIn|[<-|[]]].
      + destruct (IH p HIn Hp) as [HS|Hle].
        * exfalso. inversion C; subst; [|contradiction].
          destruct HIn as [<-|[]]. contradiction.
        * destruct HL as [HS|[_ HL]].
          -- exfalso. inversion C; subst; [|contradiction].
             destruct HIn as [<-|[]]. contradiction.
          -- eapply (lw_le_trans _ L); eauto.
      + eapply (lw_le_refl_r _ L). exact H0.
  Qed.

  Lemma chain_lookup par q l : chain par q l -> forall p, In p l -> ~ isS p -> lookup p par <> None.
  Proof.
    induction 1 as [t Ht|q q' l Hq Eq C IH]; intros p HIn Hp.
    - destruct HIn as [<-|[]]. contradiction.
    - apply in_app_or in HIn. destruct HIn as [HIn|[<-|[]]]; [auto|congruence].
  Qed.

  Lemma chain_insert_other par q l k v : chain par q l -> ~ In k l -> chain (insert k v par) q l.
  Proof.
    induction 1 as [t Ht|q q' l Hq Eq C IH]; intros HN.
    - constructor. exact Ht.
    - econstructor; [exact Hq| |apply IH; intros HI; apply HN; apply in_or_app; left; exact HI].
      rewrite lookup_insert. destruct (vec_dec q k) as [->|N]; [|exact Eq].
      exfalso. apply HN. apply in_or_app. right. left. reflexivity.
  Qed.

  Lemma chain_insert par k v lv : ~ isS k -> chain par v lv -> ~ In k lv ->
    forall q l, chain par q l -> exists l', chain (insert k v par) q l'.
  Proof.
    intros Hk Cv Nv q l C. induction C as [t Ht|q q' l Hq Eq C IH].
    - exists [t]. constructor. exact Ht.
    - destruct (vec_dec q k) as [->|N].
      + exists (lv ++ [k]). econstructor; [exact Hk| |apply chain_insert_other; eauto].
        rewrite lookup_insert. destruct (vec_dec k k); congruence.
      + destruct IH as [l' C']. exists (l' ++ [q]). econstructor; eauto.
        rewrite lookup_insert. destruct (vec_dec q k); congruence.
  Qed.

  Lemma chain_insert_start par k v : isS k -> forall q l, chain par q l -> chain (insert k v par) q l.
  Proof.
    intros Hk q l C. induction C as [t Ht|q q' l Hq Eq C IH].
    - constructor. exact Ht.
    - econstructor; eauto. rewrite lookup_insert. destruct (vec_dec q k) as [->|N]; [contradiction|exact Eq].
  Qed.

  (** The new parent's chain does not go through the updated cell. *)
  Lemma chain_avoids gr s u lv : Inv gr s -> upd_ok gr (st_parents s) u ->
    lt (up_cost u) (st_g s (up_to u)) -> ~ isS (up_to u) ->
    chain (st_parents s) (up_from u) lv -> ~ In (up_to u) lv.
  Proof.
    intros HI (_ & H0 & HL) Hlt Hn C HIn.
    destruct (lookup (up_to u) (st_parents s)) as [q|] eqn:Eq.
    2:{ apply (chain_lookup _ _ _ C _ HIn Hn Eq). }
    destruct (inv_parent _ _ HI _ _ Hn Eq) as (_ & _ & [Eg|Eg] & _).
    - destruct (chain_labels gr s HI _ _ C _ HIn Hn) as [HS|Hle].
      + inversion C; subst; [|contradiction]. destruct HIn as [E|[]]. rewrite E in *. contradiction.
      + destruct HL as [HS|[_ HL]].
        * inversion C; subst; [|contradiction]. destruct HIn as [E|[]]. rewrite E in *. contradiction.
        * rewrite Eg in Hlt. pose proof (lw_le_trans _ L _ _ _ Hle HL) as T.
          pose proof (lw_le_lt_trans _ L _ _ _ T Hlt) as Q.
          rewrite (lw_lt_irrefl _ L) in Q. discriminate.
    - rewrite Eg in Hlt. rewrite not_lt_neg1 in Hlt by exact H0. discriminate.
  Qed.

  Lemma update_extends gr s u : Inv gr s -> upd_ok gr (st_parents s) u ->
    lt (up_cost u) (st_g s (up_to u)) ->
    extends gr (set_g gr (up_to u) (up_cost u)) (st_parents s)
            (insert (up_to u) (up_from u) (st_parents s)).
  Proof.
    intros HI (_ & H0 & HL) Hlt. split.
    - intros p Hp. rewrite lookup_insert. destruct (vec_dec p (up_to u)); [discriminate|exact Hp].
    - intros p Hp Hl c Hc. unfold set_g. destruct (vec_dec p (up_to u)) as [->|N]; [|exact Hc].
      destruct (lookup (up_to u) (st_parents s)) as [q|] eqn:Eq; [|congruence].
      destruct (inv_parent _ _ HI _ _ Hp Eq) as (_ & _ & [Eg|Eg] & _).
      + rewrite Eg in Hlt. apply (lw_lt_le _ L). eapply (lw_lt_le_trans _ L); eauto.
      + rewrite Eg in Hlt. rewrite not_lt_neg1 in Hlt by exact H0. discriminate.
  Qed.

  Lemma open_after O loop limit (open1 : list (@entry F)) en :
    In en (if (0 <? limit)%nat && (limit <? length open1)%nat
           then match take_at (o_drop O loop open1) open1 with Some (_, r) => r | None => open1 end
           else open1) -> In en open1.
  Proof using Type.
    destruct (_ && _); [|auto].
    destruct (take_at (o_drop O loop open1) open1) as [[a r]|] eqn:E; [|auto].
    intros H. apply take_at_perm in E. eapply Permutation_in; [symmetry; exact E|]. right. exact H.
  Qed.

  Lemma apply_update_inv O loop limit gr s u : Inv gr s -> upd_ok gr (st_parents s) u ->
    exists gr', Inv gr' (apply_update K O loop limit s u) /\
      extends gr gr' (st_parents s) (st_parents (apply_update K O loop limit s u)).
  Proof.
    intros HI HU. unfold apply_update.
    destruct (fltb K (up_cost u) (st_g s (up_to u))) eqn:Hlt.
    2:{ exists gr. split; [exact HI|apply extends_refl]. }
    set (t := up_to u) in *. set (f := up_from u) in *. set (c := up_cost u) in *.
    pose proof (update_extends gr s u HI HU Hlt) as HE. fold t f c in HE.
    exists (set_g gr t c). split; [|exact HE].
    pose proof HU as (HM & H0 & HL). fold t f c in HM, H0, HL.
    assert (Hcc : le c c) by (eapply le_refl_of_lt; exact Hlt).
    constructor; cbn [st_g st_parents st_open st_better].
    - intros p q Hp Eq. rewrite lookup_insert in Eq. destruct (vec_dec p t) as [->|N].
      + injection Eq as <-. split; [exact HM|].
        rewrite !set_g_eq.
        split; [exact H0|]. split; [left; reflexivity|].
        eapply label_ok_ext; [exact HE|exact HL].
      + destruct (inv_parent _ _ HI p q Hp Eq) as (A1 & A2 & A3 & A4).
        rewrite !(set_g_neq _ t _ p) by exact N.
        split; [exact A1|]. split; [exact A2|]. split; [exact A3|].
        eapply label_ok_ext; [exact HE|exact A4].
    - intros p Hp Eq. rewrite lookup_insert in Eq. destruct (vec_dec p t) as [->|N]; [discriminate|].
      unfold set_g. destruct (vec_dec p t); [congruence|]. apply (inv_unreached _ _ HI); auto.
    - intros en Hen. apply open_after in Hen. destruct Hen as [<-|Hen].
      + unfold entry_ok; cbn [en_v en_raw]. split; [|split; [exact H0|apply HM]].
        right. split.
        * rewrite lookup_insert. destruct (vec_dec t t); congruence.
        * unfold set_g. destruct (vec_dec t t); [exact Hcc|congruence].
      + eapply entry_ok_ext; [exact HE|]. apply (inv_open _ _ HI). exact Hen.
    - intros p Hp. destruct (isS_dec t) as [St|Nt].
      + assert (Hp' : reached (st_parents s) p).
        { destruct Hp as [Hp|Hp]; [left; exact Hp|]. rewrite lookup_insert in Hp.
          destruct (vec_dec p t) as [->|N]; [left; exact St|right; exact Hp]. }
        destruct (inv_chain _ _ HI p Hp') as [l C]. exists l. apply chain_insert_start; assumption.
      + assert (Hf : reached (st_parents s) f) by (destruct HL as [?|[? _]]; [left|right]; assumption).
        destruct (inv_chain _ _ HI f Hf) as [lf Cf].
        pose proof (chain_avoids gr s u lf HI HU Hlt Nt Cf) as Nf. fold t in Nf.
        destruct (vec_dec p t) as [->|N].
        * exists (lf ++ [t]). econstructor; [exact Nt| |apply chain_insert_other; eauto].
          rewrite lookup_insert. destruct (vec_dec t t); congruence.
        * assert (Hp' : reached (st_parents s) p).
          { destruct Hp as [Hp|Hp]; [left; exact Hp|]. rewrite lookup_insert in Hp.
            destruct (vec_dec p t); [congruence|right; exact Hp]. }
          destruct (inv_chain _ _ HI p Hp') as [l C]. eapply chain_insert; eauto.
    - eapply reached_ext; [exact HE|]. apply (inv_better _ _ HI).
  Qed.

  Lemma apply_updates_inv O loop limit us : forall gr s, Inv gr s ->
    Forall (upd_ok gr (st_parents s)) us ->
    exists gr', Inv gr' (fold_left (apply_update K O loop limit) us s) /\
      extends gr gr' (st_parents s) (st_parents (fold_left (apply_update K O loop limit) us s)).
  Proof.
    induction us as [|u us IH]; intros gr s HI HF; simpl.
    - exists gr. split; [exact HI|apply extends_refl].
    - inversion HF as [|? ? Hu HF']; subst.
      destruct (apply_update_inv O loop limit gr s u HI Hu) as (gr1 & HI1 & HE1).
      destruct (IH gr1 (apply_update K O loop limit s u) HI1) as (gr2 & HI2 & HE2).
      { eapply Forall_impl; [|exact HF']. intros a Ha. eapply upd_ok_ext; eauto. }
      exists gr2. split; [exact HI2|]. eapply extends_trans; eauto.
  Qed.

  Lemma apply_dont_inv gr s p : Inv gr s -> reached (st_parents s) p -> Inv gr (apply_dont K s p).
  Proof.
    intros HI Hp. constructor; cbn [apply_dont st_g st_parents st_open st_better].
    - intros x q Hx Eq. destruct (inv_parent _ _ HI x q Hx Eq) as (A1 & A2 & A3 & A4).
      split; [exact A1|]. split; [exact A2|]. split; [|exact A4].
      unfold set_g. destruct (vec_dec x p); [right; reflexivity|exact A3].
    - intros x Hx Eq. unfold set_g. destruct (vec_dec x p) as [->|N].
      + destruct Hp; contradiction.
      + apply (inv_unreached _ _ HI); assumption.
    - apply (inv_open _ _ HI).
    - apply (inv_chain _ _ HI).
    - apply (inv_better _ _ HI).
  Qed.

  Lemma apply_donts_inv gr ps : forall s, Inv gr s -> Forall (reached (st_parents s)) ps ->
    Inv gr (fold_left (apply_dont K) ps s) /\
    st_parents (fold_left (apply_dont K) ps s) = st_parents s.
  Proof.
    induction ps as [|p ps IH]; intros s HI HF; simpl; [auto|].
    inversion HF as [|? ? H1 H2]; subst. apply (IH (apply_dont K s p)); [apply apply_dont_inv; auto|exact H2].
  Qed.

  Definition work_ok (gr : vec -> F) (par : list (vec * vec)) (w : list update * list vec) : Prop :=
    Forall (upd_ok gr par) (fst w) /\ Forall (reached par) (snd w).

  Lemma apply_thread_inv O loop limit gr s w : Inv gr s -> work_ok gr (st_parents s) w ->
    exists gr', Inv gr' (apply_thread K O loop limit s w) /\
      extends gr gr' (st_parents s) (st_parents (apply_thread K O loop limit s w)).
  Proof.
    intros HI [H1 H2]. unfold apply_thread.
    destruct (apply_updates_inv O loop limit (fst w) gr s HI H1) as (gr1 & HI1 & HE1).
    destruct (apply_donts_inv gr1 (snd w) _ HI1) as [HI2 EP].
    { eapply Forall_impl; [|exact H2]. intros a. eapply reached_ext; eauto. }
    exists gr1. split; [exact HI2|]. rewrite EP. exact HE1.
  Qed.

  Lemma apply_threads_inv O loop limit ws : forall gr s, Inv gr s ->
    Forall (work_ok gr (st_parents s)) ws ->
    exists gr', Inv gr' (fold_left (apply_thread K O loop limit) ws s) /\
      extends gr gr' (st_parents s) (st_parents (fold_left (apply_thread K O loop limit) ws s)).
  Proof.
    induction ws as [|w ws IH]; intros gr s HI HF; simpl.
    - exists gr. split; [exact HI|apply extends_refl].
    - inversion HF as [|? ? Hw HF']; subst.
      destruct (apply_thread_inv O loop limit gr s w HI Hw) as (gr1 & HI1 & HE1).
      destruct (IH gr1 _ HI1) as (gr2 & HI2 & HE2).
      { eapply Forall_impl; [|exact HF']. intros a [A B]. split.
        - eapply Forall_impl; [|exact A]. intros; eapply upd_ok_ext; eauto.
        - eapply Forall_impl; [|exact B]. intros; eapply reached_ext; eauto. }
      exists gr2. split; [exact HI2|]. eapply extends_trans; eauto.
  Qed.

  (** Updates produced for one center are real moves with a non-decreasing cost. *)
  Lemma expand_list_ok g p c gp : valid size p -> forall ds acc us,
    (forall d, In d ds -> In d (m_searchGrids M p ssn e)) ->
    expand_list K nc size M g ssn e p c gp ds acc = Ok us ->
    forall u, In u us -> In u acc \/
      (up_from u = p /\ Mv p (up_to u) /\ le c (up_cost u)).
  Proof.
    intros Hp ds. induction ds as [|d ds IH]; intros acc us Hin E u Hu.
    - simpl in E. injection E as <-. left. exact Hu.
    - simpl in E.
      assert (Hin' : forall d0, In d0 ds -> In d0 (m_searchGrids M p ssn e)) by (intros; apply Hin; right; assumption).
      destruct (cycleUnsigned nc (vec_add p d) size) as [next|] eqn:En; [|discriminate]. simpl in E.
      destruct (isExceeded nc next size) eqn:Ex; [eapply IH; eauto|].
      destruct (fltb K (g next) gp); [eapply IH; eauto|].
      destruct (fltb K (m_costEstim M next e) (fzero K)) eqn:C1; [eapply IH; eauto|].
      destruct (feqb K (m_costEstim M next e) (fmax K)) eqn:C2; [eapply IH; eauto|].
      destruct (fltb K (m_cost M p next ssn e) (fzero K)) eqn:C3; [eapply IH; eauto|].
      destruct (feqb K (m_cost M p next ssn e) (fmax K)) eqn:C4; [eapply IH; eauto|].
      simpl in E.
      destruct (fltb K (fadd K c (m_cost M p next ssn e)) (g next)) eqn:C5; [|eapply IH; eauto].
      destruct (IH _ _ Hin' E u Hu) as [HA|HA]; [|right; exact HA].
      apply in_app_or in HA. destruct HA as [HA|[<-|[]]]; [left; exact HA|].
      right. cbn [up_from up_to up_cost]. split; [reflexivity|].
      assert (Hd : In d (m_searchGrids M p ssn e)) by (apply Hin; left; reflexivity).
      destruct (Hmod _ _ _ _ Hd) as [Ld Fd].
      destruct (next_in_map nc size p d next Hnc Hsz Hp Ld Fd En) as [HC HV].
      split.
      + split; [exists d; split; assumption|]. split; [apply HV; exact Ex|].
        split; split; assumption.
      + eapply (lw_add_le _ L); eauto.
  Qed.

  Lemma thread_work_ok gr par g : forall cs w,
    Forall (entry_ok gr par) cs -> thread_work K nc size M g ssn e cs = Ok w -> work_ok gr par w.
  Proof.
    induction cs as [|c cs IH]; intros w HF E; simpl in E.
    - injection E as <-. split; constructor.
    - inversion HF as [|? ? Hc HF']; subst.
      destruct (fltb K (g (en_v c)) (en_raw c)); [apply IH; assumption|].
      destruct (expand_list K nc size M g ssn e (en_v c) (en_raw c) (g (en_v c))
                  (m_searchGrids M (en_v c) ssn e) []) as [us|] eqn:Eu; [|discriminate]. simpl in E.
      destruct (thread_work K nc size M g ssn e cs) as [[us' dont']|] eqn:Ew; [|discriminate]. simpl in E.
      injection E as <-. destruct (IH _ HF' eq_refl) as [W1 W2].
      destruct Hc as (HL & H0 & HV). split; cbn [fst snd] in *.
      + apply Forall_app. split; [|exact W1]. apply Forall_forall. intros u Hu.
        destruct (expand_list_ok g (en_v c) (en_raw c) (g (en_v c)) HV _ _ _ (fun d H => H) Eu u Hu)
          as [[]|(E1 & E2 & E3)].
        unfold upd_ok. rewrite E1. split; [exact E2|].
        split; [eapply (lw_le_trans _ L); eauto|].
        destruct HL as [HL|[HL1 HL2]]; [left; exact HL|right; split; [exact HL1|]].
        eapply (lw_le_trans _ L); eauto.
      + apply Forall_app. split; [|exact W2].
        destruct us; constructor; [|constructor].
        destruct HL as [HL|[HL1 _]]; [left|right]; assumption.
  Qed.

  Lemma expand_list_total g p c gp : valid size p -> forall ds acc,
    (forall d, In d ds -> length d = length size) ->
    exists us, expand_list K nc size M g ssn e p c gp ds acc = Ok us.
  Proof.
    intros Hp ds. induction ds as [|d ds IH]; intros acc HL; simpl; [eauto|].
    destruct (next_total nc size p d Hnc Hsz) as [next En].
    { apply valid_length. exact Hp. }
    { apply HL. left. reflexivity. }
    assert (HL' : forall d0, In d0 ds -> length d0 = length size) by (intros; apply HL; right; assumption).
    rewrite En. simpl.
    repeat match goal with |- context [if ?b then _ else _] => destruct b end; apply IH; exact HL'.
  Qed.

  Lemma thread_work_total g : forall cs, Forall (fun c => valid size (en_v c)) cs ->
    exists w, thread_work K nc size M g ssn e cs = Ok w.
  Proof.
    induction cs as [|c cs IH]; intros HF; simpl; [eauto|].
    inversion HF as [|? ? Hc HF']; subst. destruct (IH HF') as [[us' d'] Ew].
    destruct (fltb K (g (en_v c)) (en_raw c)); [eauto|].
    destruct (expand_list_total g (en_v c) (en_raw c) (g (en_v c)) Hc (m_searchGrids M (en_v c) ssn e) [])
      as [us Eu].
    { intros d Hd. apply (Hmod _ _ _ _ Hd). }
    rewrite Eu, Ew. simpl. eauto.
  Qed.

  Lemma mapM_ok {A B} (f : A -> outcome B) (P : A -> Prop) (Q : B -> Prop) :
    (forall a b, P a -> f a = Ok b -> Q b) -> forall l r, Forall P l -> mapM f l = Ok r -> Forall Q r.
  Proof using Type.
    intros H l. induction l as [|a l IH]; intros r HF E; simpl in E.
    - injection E as <-. constructor.
    - inversion HF; subst. destruct (f a) as [b|] eqn:Eb; [|discriminate]. simpl in E.
      destruct (mapM f l) as [t|] eqn:Et; [|discriminate]. simpl in E. injection E as <-.
      constructor; eauto.
  Qed.
  Lemma mapM_total {A B} (f : A -> outcome B) (P : A -> Prop) :
    (forall a, P a -> exists b, f a = Ok b) -> forall l, Forall P l -> exists r, mapM f l = Ok r.
  Proof using Type.
    intros H l. induction l as [|a l IH]; intros HF; simpl; [eauto|].
    inversion HF; subst. destruct (H a) as [b Eb]; auto. destruct IH as [r Er]; auto.
    rewrite Eb, Er. simpl. eauto.
  Qed.

  (** The runtime's distribution of loop iterations to threads. *)
  Definition fair_sched (O : @oracle F) : Prop :=
    forall loop cs, Permutation (concat (o_sched O loop cs)) cs.

  Lemma sched_forall O loop cs (P : @entry F -> Prop) : fair_sched O -> Forall P cs ->
    Forall (Forall P) (o_sched O loop cs).
  Proof using Type.
    intros HO HF. apply Forall_forall. intros th Hth. apply Forall_forall. intros c Hc.
    rewrite Forall_forall in HF. apply HF. eapply Permutation_in; [apply HO|].
    apply in_concat. eauto.
  Qed.

  Lemma set_better_inv gr s b : Inv gr s -> reached (st_parents s) b ->
    Inv gr (mkState (st_g s) (st_parents s) (st_open s) b).
  Proof. intros [A B C D E] Hb. constructor; assumption. Qed.

  Lemma round_inv O loop limit centers gr s : fair_sched O -> Inv gr s ->
    Forall (entry_ok gr (st_parents s)) centers ->
    exists s', round K nc size M O loop limit ssn e centers s = Ok s' /\
    exists gr', Inv gr' s' /\ extends gr gr' (st_parents s) (st_parents s').
  Proof.
    intros HO HI HC. unfold round.
    assert (HV : Forall (fun c => valid size (en_v c)) centers).
    { eapply Forall_impl; [|exact HC]. intros c (_ & _ & H). exact H. }
    destruct (mapM_total (thread_work K nc size M (st_g s) ssn e) (Forall (fun c => valid size (en_v c)))
                (fun cs H => thread_work_total (st_g s) cs H)
                (o_sched O loop centers) (sched_forall O loop centers _ HO HV)) as [ws Ews].
    rewrite Ews. cbn [bind].
    set (cands := st_better s :: _).
    set (b := nth _ cands _).
    eexists. split; [reflexivity|].
    assert (Hb : reached (st_parents s) b).
    { assert (HIn : In b cands).
      { apply nth_In. apply Nat.mod_upper_bound. unfold cands. simpl. lia. }
      destruct HIn as [<-|HIn]; [apply (inv_better _ _ HI)|].
      apply in_map_iff in HIn. destruct HIn as (c & <- & Hc). apply filter_In in Hc.
      destruct Hc as [Hc _]. rewrite Forall_forall in HC. destruct (HC c Hc) as (HL & _ & _).
      destruct HL as [?|[? _]]; [left|right]; assumption. }
    pose proof (set_better_inv gr s b HI Hb) as HI1.
    apply (apply_threads_inv O loop limit ws gr _ HI1). cbn [st_parents].
    eapply (mapM_ok (thread_work K nc size M (st_g s) ssn e) (Forall (entry_ok gr (st_parents s))));
      [|apply sched_forall; eassumption|exact Ews].
    intros cs w H1 H2. eapply thread_work_ok; eauto.
  Qed.

  Lemma fetch_spec O loop cl : forall n centers open fnd cs open',
    fetch K O loop cl n e centers open = (fnd, cs, open') ->
    exists taken, cs = centers ++ taken /\
      match fnd with
      | Some v => exists c, Permutation open (taken ++ c :: open') /\ en_v c = v /\
                            (v = e \/ leaves K cl c = true)
      | None => Permutation open (taken ++ open') /\ (length taken = n \/ open' = [])
      end /\ Forall (fun c => en_v c <> e /\ leaves K cl c = false) taken.
  Proof using Type.
    clear Hnc Hsz Hmod.
    induction n as [|n IH]; intros centers open fnd cs open' E; simpl in E.
    - injection E as <- <- <-. exists []. rewrite app_nil_r. repeat split; auto.
    - destruct (take_at (o_pick O loop open) open) as [[c r]|] eqn:Et.
      2:{ injection E as <- <- <-. exists []. rewrite app_nil_r. apply take_at_none in Et. subst.
          repeat split; auto. }
      pose proof (take_at_perm _ _ _ _ Et) as P.
      destruct (vec_dec (en_v c) e) as [Ev|Nv]; simpl in E.
      + injection E as <- <- <-. exists []. rewrite app_nil_r. split; [reflexivity|]. split; [|constructor].
        exists c. split; [exact P|]. auto.
      + destruct (leaves K cl c) eqn:El.
        * injection E as <- <- <-. exists []. rewrite app_nil_r. split; [reflexivity|]. split; [|constructor].
          exists c. split; [exact P|]. auto.
        * apply IH in E. destruct E as (taken & -> & H1 & H2). exists (c :: taken).
          rewrite <- app_assoc. split; [reflexivity|]. split; [|constructor; auto].
          destruct fnd as [v|].
          -- destruct H1 as (c' & P' & Q). exists c'. split; [|exact Q].
             rewrite P. simpl. constructor. exact P'.
          -- destruct H1 as [P' Q]. split; [rewrite P; simpl; constructor; exact P'|].
             destruct Q as [Q|Q]; [left; simpl; lia|right; exact Q].
  Qed.

  Lemma main_loop_inv O ntask limit cl : fair_sched O ->
    forall fuel loop gr s, Inv gr s ->
    match main_loop K nc size M fuel O loop ntask limit cl ssn e s with
    | LFound e' s' => exists gr' c, Inv gr' s' /\ en_v c = e' /\ entry_ok gr' (st_parents s') c /\
                       (e' = e \/ leaves K cl c = true)
    | LFail ab s' => exists gr', Inv gr' s'
    | LFuel => True
    | LUB => False
    end.
  Proof.
    intros HO. induction fuel as [|fuel IH]; intros loop gr s HI; simpl; [exact I|].
    destruct (fetch K O loop cl ntask e [] (st_open s)) as [[fnd centers] open'] eqn:Ef.
    apply fetch_spec in Ef. destruct Ef as (taken & -> & Hf & _). simpl in *.
    assert (HI1 : (forall en, In en open' -> In en (st_open s)) ->
      Inv gr (mkState (st_g s) (st_parents s) open' (st_better s))).
    { intros Hsub. destruct HI as [A B C D E]. constructor; auto. }
    destruct fnd as [v|].
    - destruct Hf as (c & P & Ev & Hd). exists gr, c. split.
      + apply HI1. intros en Hen. eapply Permutation_in; [symmetry; exact P|].
        apply in_or_app. right. right. exact Hen.
      + split; [exact Ev|]. split; [|exact Hd]. cbn [st_parents]. apply (inv_open _ _ HI).
        eapply Permutation_in; [symmetry; exact P|]. apply in_or_app. right. left. reflexivity.
    - destruct Hf as [P Hn].
      assert (HI2 : Inv gr (mkState (st_g s) (st_parents s) open' (st_better s))).
      { apply HI1. intros en Hen. eapply Permutation_in; [symmetry; exact P|].
        apply in_or_app. right. exact Hen. }
      destruct (o_abort O loop); [eauto|].
      assert (HC : Forall (entry_ok gr (st_parents s)) taken).
      { apply Forall_forall. intros c Hc. apply (inv_open _ _ HI).
        eapply Permutation_in; [symmetry; exact P|]. apply in_or_app. left. exact Hc. }
      destruct taken as [|c0 taken]; [eauto|].
      destruct (round_inv O loop limit (c0 :: taken) gr _ HO HI2 HC) as (s' & Er & gr' & HI' & _).
      rewrite Er. apply (IH (S loop) gr' s' HI').
  Qed.
End Sound.

(** ** findPath *)
Section FindPath.
  Context {F : Type} (ssn : list (vec * F)).
  Notation isS := (isS ssn).
  Notation chain := (chain ssn).
  Lemma chain_det par q l1 : chain par q l1 -> forall l2, chain par q l2 -> l1 = l2.
  Proof.
    induction 1 as [t Ht|q q' l Hq Eq C IH]; intros l2 C2.
    - inversion C2; subst; [reflexivity|contradiction].
    - inversion C2; subst; [contradiction|]. rewrite Eq in H0. injection H0 as <-.
      f_equal. apply IH. assumption.
  Qed.

  Lemma chain_prefix par q l : chain par q l -> forall p, In p l ->
    exists l1, chain par p l1 /\ (length l1 <= length l)%nat /\ (p = q \/ (length l1 < length l)%nat).
  Proof.
    induction 1 as [t Ht|q q' l Hq Eq C IH]; intros p HIn.
    - destruct HIn as [<-|[]]. exists [t]. split; [constructor; exact Ht|]. auto.
    - apply in_app_or in HIn. destruct HIn as [HIn|[<-|[]]].
      + destruct (IH p HIn) as (l1 & C1 & H1 & _). exists l1. split; [exact C1|].
        rewrite app_length. simpl. lia.
      + exists (l ++ [q]). split; [econstructor; eauto|]. auto.
  Qed.

  Lemma chain_notin par p q l : ~ isS p -> lookup p par = Some q -> chain par q l -> ~ In p l.
  Proof.
    intros Hp Eq C HIn.
    assert (C2 : chain par p (l ++ [p])) by (econstructor; eauto).
    destruct (chain_prefix par q l C p HIn) as (l1 & C1 & H1 & _).
    pose proof (chain_det _ _ _ C1 _ C2) as E. subst l1. rewrite app_length in H1. simpl in H1. lia.
  Qed.

  Lemma chain_NoDup par q l : chain par q l -> NoDup l.
  Proof.
    induction 1 as [t Ht|q q' l Hq Eq C IH].
    - constructor; [intros []|constructor].
    - apply NoDup_rev in IH. rewrite <- (rev_involutive (l ++ [q])). apply NoDup_rev.
      rewrite rev_app_distr. simpl. constructor; [|exact IH].
      rewrite <- in_rev. eapply chain_notin; eauto.
  Qed.

  Lemma chain_erase par q l k : chain par q l -> ~ In k l -> chain (erase k par) q l.
  Proof.
    induction 1 as [t Ht|q q' l Hq Eq C IH]; intros HN.
    - constructor. exact Ht.
    - econstructor; [exact Hq| |apply IH; intros HI; apply HN; apply in_or_app; left; exact HI].
      rewrite lookup_erase. destruct (vec_dec q k) as [->|N]; [|exact Eq].
      exfalso. apply HN. apply in_or_app. right. left. reflexivity.
  Qed.

  Lemma isS_existsb n : existsb (fun s : vec * F => if vec_dec n (fst s) then true else false) ssn = true <-> isS n.
  Proof.
    rewrite existsb_exists. unfold isS. split.
    - intros ([q c] & HI & H). simpl in H. destruct (vec_dec n q) as [->|]; [|discriminate]. eauto.
    - intros [c HI]. exists (n, c). split; [exact HI|]. simpl. destruct (vec_dec n n); congruence.
  Qed.

  Lemma erase_length k l : (length (erase k l) <= length l)%nat.
  Proof. induction l as [|[a b] l IH]; simpl; [lia|]. destruct (vec_dec a k); simpl; lia. Qed.
  Lemma erase_length_lt k l v : lookup k l = Some v -> (length (erase k l) < length l)%nat.
  Proof.
    induction l as [|[a b] l IH]; simpl; [discriminate|].
    destruct (vec_dec a k) as [->|N].
    - intros _. pose proof (erase_length k l). lia.
    - intros H. simpl. apply IH in H. lia.
  Qed.

  Lemma findPath_total : forall fuel n par path, (length par < fuel)%nat ->
    exists r, findPath_loop fuel ssn n par path = Some r.
  Proof.
    induction fuel as [|fuel IH]; intros n par path H; [lia|]. simpl.
    destruct (existsb _ ssn); [eauto|].
    destruct (lookup n par) as [q|] eqn:E; [|eauto].
    apply IH. pose proof (erase_length_lt _ _ _ E). lia.
  Qed.

  Lemma findPath_chain : forall l q par fuel path, chain par q l -> (length par < fuel)%nat ->
    findPath_loop fuel ssn q par path = Some (true, l ++ path).
  Proof.
    intros l. remember (length l) as n eqn:En. revert l En.
    induction n as [|n IH]; intros l En q par fuel path C Hf.
    - inversion C; subst; [discriminate|]. rewrite app_length in En. simpl in En. lia.
    - destruct fuel as [|fuel]; [lia|]. simpl.
      inversion C as [t Ht E1 E2|p q' l' Hp Eq C' E1 E2]; subst.
      + destruct (existsb _ ssn) eqn:Ex; [reflexivity|].
        assert (isS q) as HS by exact Ht. apply isS_existsb in HS. congruence.
      + destruct (existsb _ ssn) eqn:Ex.
        * apply isS_existsb in Ex. contradiction.
        * rewrite Eq. rewrite <- app_assoc. simpl. apply IH.
          -- rewrite app_length in En. simpl in En. lia.
          -- apply chain_erase; [exact C'|]. eapply chain_notin; eauto.
          -- pose proof (erase_length_lt _ _ _ Eq). lia.
  Qed.

  Lemma linked_app {A} (R : A -> A -> Prop) l x y d : linked R (l ++ [x]) -> last (l ++ [x]) d = x -> R x y ->
    linked R ((l ++ [x]) ++ [y]).
  Proof.
    intros H _ Hxy. induction l as [|a l IH]; simpl in *.
    - auto.
    - destruct l as [|b l]; simpl in *.
      + destruct H as [H1 _]. auto.
      + destruct H as [H1 H2]. split; [exact H1|]. apply IH. exact H2.
  Qed.

  Lemma chain_last par q l : chain par q l -> exists l', l = l' ++ [q].
  Proof. destruct 1; [exists []; reflexivity|eauto]. Qed.

  Lemma chain_linked K nc size M e gr s : Inv K nc size M ssn e gr s -> forall q l, chain (st_parents s) q l ->
    linked (move K nc size M ssn e) l /\ (exists s0, isS s0 /\ hd_error l = Some s0) /\ (forall d, last l d = q).
  Proof.
    intros HI q l C. induction C as [t Ht|q q' l Hq Eq C (IH1 & IH2 & IH3)].
    - split; [exact I|]. split; [exists t; auto|reflexivity].
    - destruct (chain_last _ _ _ C) as [l' ->].
      split; [|split].
      + eapply (linked_app _ l' q' q q'); [exact IH1|apply IH3|].
        apply (inv_parent _ _ _ _ _ _ _ _ HI q q' Hq Eq).
      + destruct IH2 as (s0 & Hs & Hh). exists s0. split; [exact Hs|].
        destruct l'; simpl in *; assumption.
      + intros d. rewrite last_last. reflexivity.
  Qed.
End FindPath.
