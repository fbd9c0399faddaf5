(** Termination of the search: a measure over simple walks strictly decreases. *)
From Coq Require Import ZifyBool ZifyNat Permutation.
From Verif Require Import Common CyclicVec CyclicVecSpec CyclicVecProofs GridMapSpec GridMapProofs
  CostAlg AStar AStarSpec AStarProofs AStarSearch.
Local Open Scope Z_scope.

(** ** Exact description of one expansion *)
Section Expand.
  Context {F : Type} (K : cost_ops F) (nc : nat) (size : vec) (M : @smodel F).
  Variables (ssn : list (vec * F)) (e : vec).
  Hypothesis Hnc : (nc <= length size)%nat.
  Hypothesis Hsz : Forall (fun s => 0 < s <= 2 ^ 30) size.
  Hypothesis Hmod : forall p ss e d, In d (m_searchGrids M p ss e) ->
       length d = length size /\ Forall (fun x => Z.abs x <= 2 ^ 30) d.
  Notation Mv := (move K nc size M ssn e).

  Definition upd_of (p : vec) (c : F) (n : vec) : update :=
    let cn := fadd K c (m_cost M p n ssn e) in
    mkUpdate p n (fadd K cn (m_costEstim M n e)) cn.

  Definition one_move (p d n : vec) : Prop :=
    canon unsigned_range nc (plus p d) size n /\ valid size n /\
    admissible_value K (m_costEstim M n e) /\ admissible_value K (m_cost M p n ssn e).

  Lemma expand_list_exact g p c gp : valid size p -> forall ds acc us,
    (forall d, In d ds -> In d (m_searchGrids M p ssn e)) ->
    expand_list K nc size M g ssn e p c gp ds acc = Ok us ->
    (forall u, In u us <-> In u acc \/
      exists d n, In d ds /\ one_move p d n /\ fltb K (g n) gp = false /\
        fltb K (fadd K c (m_cost M p n ssn e)) (g n) = true /\ u = upd_of p c n).
  Proof.
    intros Hp ds. induction ds as [|d ds IH]; intros acc us Hin E u.
    - simpl in E. injection E as <-. split; [auto|]. intros [H|(d & n & [] & _)]. exact H.
    - simpl in E.
      assert (Hin' : forall d0, In d0 ds -> In d0 (m_searchGrids M p ssn e)) by (intros; apply Hin; right; assumption).
      assert (Hd : In d (m_searchGrids M p ssn e)) by (apply Hin; left; reflexivity).
      destruct (Hmod _ _ _ _ Hd) as [Ld Fd].
      destruct (cycleUnsigned nc (vec_add p d) size) as [next|] eqn:En; [|discriminate]. simpl in E.
      destruct (next_in_map nc size p d next Hnc Hsz Hp Ld Fd En) as [HC HV].
      assert (Huniq : forall n, canon unsigned_range nc (plus p d) size n -> n = next).
      { intros n Hcn. rewrite vec_add_plus in En.
        pose proof (valid_length size p Hp) as Lp.
        apply cycleUnsigned_iff in Hcn; [rewrite Hcn in En; injection En; auto|rewrite plus_length; lia|].
        intros i r _ Hn. apply (Forall_nth _ _ _ _ Hsz) in Hn. lia. }
      assert (Hskip : (forall n, one_move p d n -> fltb K (g n) gp = false ->
                 fltb K (fadd K c (m_cost M p n ssn e)) (g n) = true -> False) ->
        expand_list K nc size M g ssn e p c gp ds acc = Ok us ->
        (In u us <-> In u acc \/ exists d0 n, In d0 (d :: ds) /\ one_move p d0 n /\ fltb K (g n) gp = false /\
           fltb K (fadd K c (m_cost M p n ssn e)) (g n) = true /\ u = upd_of p c n)).
      { intros HN E'. rewrite (IH acc us Hin' E' u). split.
        - intros [H|(d0 & n & H1 & H2)]; [auto|]. right. exists d0, n. split; [right; exact H1|exact H2].
        - intros [H|(d0 & n & [<-|H1] & H2 & H3 & H4 & H5)]; [auto| |].
          + destruct (HN n H2 H3 H4).
          + right. exists d0, n. auto. }
      destruct (isExceeded nc next size) eqn:Ex.
      { apply Hskip; auto. intros n (A1 & A2 & _) _ _. rewrite (Huniq n A1) in A2.
        apply HV in A2. discriminate. }
      destruct (fltb K (g next) gp) eqn:Eg.
      { apply Hskip; auto. intros n (A1 & _) A2 _. rewrite (Huniq n A1) in A2. congruence. }
      destruct (fltb K (m_costEstim M next e) (fzero K)) eqn:C1.
      { apply Hskip; auto. intros n (A1 & _ & [A2 _] & _) _ _. rewrite (Huniq n A1) in A2. congruence. }
      destruct (feqb K (m_costEstim M next e) (fmax K)) eqn:C2.
      { apply Hskip; auto. intros n (A1 & _ & [_ A2] & _) _ _. rewrite (Huniq n A1) in A2. congruence. }
      simpl in E.
      destruct (fltb K (m_cost M p next ssn e) (fzero K)) eqn:C3.
      { apply Hskip; auto. intros n (A1 & _ & _ & [A2 _]) _ _. rewrite (Huniq n A1) in A2. congruence. }
      destruct (feqb K (m_cost M p next ssn e) (fmax K)) eqn:C4.
      { apply Hskip; auto. intros n (A1 & _ & _ & [_ A2]) _ _. rewrite (Huniq n A1) in A2. congruence. }
      simpl in E.
      destruct (fltb K (fadd K c (m_cost M p next ssn e)) (g next)) eqn:C5.
      2:{ apply Hskip; auto. intros n (A1 & _) _ A2. rewrite (Huniq n A1) in A2. congruence. }
      rewrite (IH _ us Hin' E u). rewrite in_app_iff. split.
      + intros [[H|[<-|[]]]|(d0 & n & H1 & H2)]; [auto| |].
        * right. exists d, next. split; [left; reflexivity|].
          split; [split; [exact HC|split; [apply HV; reflexivity|split; split; assumption]]|].
          split; [exact Eg|]. split; [exact C5|reflexivity].
        * right. exists d0, n. split; [right; exact H1|exact H2].
      + intros [H|(d0 & n & [<-|H1] & H2 & H3 & H4 & H5)]; [auto| |].
        * left. right. left. subst u. destruct H2 as (A1 & _). rewrite (Huniq n A1). reflexivity.
        * right. exists d0, n. auto.
  Qed.

  (** The updates of one center, in terms of moves. *)
  Lemma expand_exact g p c us : valid size p ->
    expand_list K nc size M g ssn e p c (g p) (m_searchGrids M p ssn e) [] = Ok us ->
    forall u, In u us <-> exists n, Mv p n /\ fltb K (g n) (g p) = false /\
        fltb K (fadd K c (m_cost M p n ssn e)) (g n) = true /\ u = upd_of p c n.
  Proof.
    intros Hp E u. rewrite (expand_list_exact g p c (g p) Hp _ _ _ (fun d H => H) E u). split.
    - intros [[]|(d & n & H1 & (A1 & A2 & A3 & A4) & H3)]. exists n. split; [|exact H3].
      split; [exists d; auto|]. auto.
    - intros (n & ((d & Hd & HC) & A2 & A3 & A4) & H3). right. exists d, n. split; [exact Hd|].
      split; [split; auto|exact H3].
  Qed.
End Expand.

(** ** Finite enumerations *)
Fixpoint cells (size : vec) : list vec :=
  match size with
  | [] => [[]]
  | s :: size' => flat_map (fun z => map (cons z) (cells size')) (range_excl 0 s)
  end.
Lemma in_cells size : forall p, valid size p -> In p (cells size).
Proof.
  induction size as [|s size IH]; intros p H; inversion H; subst; simpl; [auto|].
  apply in_flat_map. exists y. split; [apply in_range_excl; lia|]. apply List.in_map. auto.
Qed.

Fixpoint lists_upto {A} (n : nat) (l : list A) : list (list A) :=
  match n with
  | O => [[]]
  | S n' => [] :: flat_map (fun x => map (cons x) (lists_upto n' l)) l
  end.
Lemma in_lists_upto {A} (l : list A) : forall n w, (length w <= n)%nat -> (forall x, In x w -> In x l) ->
  In w (lists_upto n l).
Proof.
  induction n as [|n IH]; intros w Hl Hw.
  - destruct w; simpl in *; [auto|lia].
  - destruct w as [|x w]; [left; reflexivity|]. right. apply in_flat_map. exists x. split; [apply Hw; left; reflexivity|].
    apply List.in_map. apply IH; [simpl in Hl; lia|]. intros y Hy. apply Hw. right. exact Hy.
Qed.

Lemma filter_length_le {A} (f f' : A -> bool) l : (forall x, f' x = true -> f x = true) ->
  (length (filter f' l) <= length (filter f l))%nat.
Proof.
  intros H. induction l as [|x l IH]; simpl; [lia|].
  destruct (f' x) eqn:E; [rewrite (H x E); simpl; lia|]. destruct (f x); simpl; lia.
Qed.
Lemma filter_length_lt {A} (f f' : A -> bool) l x : (forall x, f' x = true -> f x = true) ->
  In x l -> f x = true -> f' x = false -> (length (filter f' l) < length (filter f l))%nat.
Proof.
  intros H. induction l as [|y l IH]; simpl; [tauto|]. intros [->|HI] Hf Hf'.
  - rewrite Hf, Hf'. simpl. pose proof (filter_length_le f f' l H). lia.
  - specialize (IH HI Hf Hf'). destruct (f' y) eqn:E; [rewrite (H y E); simpl; lia|]. destruct (f y); simpl; lia.
Qed.

Section Term.
  Context {F : Type} (K : cost_ops F) (L : cost_laws K) (nc : nat) (size : vec) (M : @smodel F).
  Variables (ssn : list (vec * F)) (e : vec).
  Hypothesis Hnc : (nc <= length size)%nat.
  Hypothesis Hsz : Forall (fun s => 0 < s <= 2 ^ 30) size.
  Hypothesis Hmod : forall p ss e d, In d (m_searchGrids M p ss e) ->
       length d = length size /\ Forall (fun x => Z.abs x <= 2 ^ 30) d.
  Notation Mv := (move K nc size M ssn e).
  Notation le a b := (fleb K a b = true).
  Notation lt a b := (fltb K a b = true).

  (** [x]'s score does not exceed [v]. *)
  Definition dom (g : vec -> F) (x : vec) (v : F) : Prop := fltb K v (g x) = false.

  (** A simple walk in reverse order (last cell first), with its cost. *)
  Inductive wit (g : vec -> F) : list vec -> F -> Prop :=
  | wit_start s c : In (s, c) ssn -> valid size s -> le (fzero K) c -> dom g s c -> wit g [s] c
  | wit_step p r c t : wit g (p :: r) c -> Mv p t -> le c (fadd K c (m_cost M p t ssn e)) ->
      ~ In t (p :: r) -> dom g t (fadd K c (m_cost M p t ssn e)) ->
      wit g (t :: p :: r) (fadd K c (m_cost M p t ssn e)).

  (** Cost of a reversed cell list starting (at its end) with cost [c0]. *)
  Fixpoint rcost (c0 : F) (w : list vec) : F :=
    match w with
    | t :: ((p :: _) as r) => fadd K (rcost c0 r) (m_cost M p t ssn e)
    | _ => c0
    end.

  Lemma wit_nonneg g w c : wit g w c -> le (fzero K) c.
  Proof. induction 1; [assumption|]. eapply (lw_le_trans _ L); eauto. Qed.

  Lemma wit_facts g w c : wit g w c -> NoDup w /\ (forall x, In x w -> valid size x) /\
    exists s c0, In (s, c0) ssn /\ rcost c0 w = c.
  Proof.
    induction 1 as [s c HI HV H0 HD|p r c t HW (IH1 & IH2 & s & c0 & Hs & E) HM Hle HN HD].
    - split; [constructor; [auto|constructor]|]. split; [intros x [<-|[]]; exact HV|]. exists s, c. auto.
    - split; [constructor; assumption|]. split.
      + intros x [<-|Hx]; [apply HM|auto].
      + exists s, c0. split; [exact Hs|]. simpl in *. rewrite E. reflexivity.
  Qed.

  (** Every cell of the walk is dominated by something not above the walk's cost. *)
  Lemma wit_prefix g w c : wit g w c -> forall x, In x w -> exists v, le v c /\ dom g x v.
  Proof.
    induction 1 as [s c HI HV H0 HD|p r c t HW IH HM Hle HN HD]; intros x Hx.
    - destruct Hx as [<-|[]]. exists c. split; [eapply (lw_le_refl_r _ L); eauto|exact HD].
    - destruct Hx as [<-|Hx].
      + eexists. split; [|exact HD]. eapply (lw_le_refl_r _ L); eauto.
      + destruct (IH x Hx) as (v & Hv & HD'). exists v. split; [|exact HD']. eapply (lw_le_trans _ L); eauto.
  Qed.

  (** Scores only improve. *)
  Definition gmono (g g' : vec -> F) : Prop :=
    forall x v, le (fzero K) v -> dom g x v -> dom g' x v.
  Lemma gmono_refl g : gmono g g.
  Proof. intros x v _ H. exact H. Qed.
  Lemma gmono_trans g1 g2 g3 : gmono g1 g2 -> gmono g2 g3 -> gmono g1 g3.
  Proof. intros A B x v H0 H. apply B; auto. Qed.

  Lemma wit_mono g g' w c : gmono g g' -> wit g w c -> wit g' w c.
  Proof.
    intros HM. induction 1 as [s c HI HV H0 HD|p r c t HW IH Hm Hle HN HD].
    - constructor; auto.
    - constructor; auto. apply HM; [|exact HD]. pose proof (wit_nonneg _ _ _ HW).
      eapply (lw_le_trans _ L); eauto.
  Qed.

  Definition lab (g : vec -> F) (p : vec) (c : F) : Prop := exists r, wit g (p :: r) c.
  Definition tentry (g : vec -> F) (en : @entry F) : Prop := lab g (en_v en) (en_raw en).
  Definition tupd (g : vec -> F) (u : update) : Prop :=
    exists c, lab g (up_from u) c /\ Mv (up_from u) (up_to u) /\ le c (up_cost u) /\
      up_cost u = fadd K c (m_cost M (up_from u) (up_to u) ssn e).

  Lemma tupd_mono g g' u : gmono g g' -> tupd g u -> tupd g' u.
  Proof. intros HM (c & [r HW] & H). exists c. split; [exists r; eapply wit_mono; eauto|exact H]. Qed.
  Lemma tentry_mono g g' u : gmono g g' -> tentry g u -> tentry g' u.
  Proof. intros HM [r HW]. exists r. eapply wit_mono; eauto. Qed.

  (** All candidate walks. *)
  Definition walks : list (F * list vec) :=
    list_prod (map snd ssn) (lists_upto (length (cells size)) (cells size)).
  Definition better_than (g : vec -> F) (w : F * list vec) : bool :=
    match snd w with [] => false | x :: _ => fleb K (fzero K) (rcost (fst w) (snd w)) && fltb K (rcost (fst w) (snd w)) (g x) end.
  Definition slack (g : vec -> F) : nat := length (filter (better_than g) walks).

  Lemma in_walks g w c : wit g w c -> exists c0, In (c0, w) walks /\ rcost c0 w = c.
  Proof.
    intros HW. destruct (wit_facts g w c HW) as (ND & HV & s & c0 & Hs & E).
    exists c0. split; [|exact E]. unfold walks. apply in_prod.
    - apply List.in_map_iff. exists (s, c0). auto.
    - assert (Hin : forall x, In x w -> In x (cells size)) by (intros; apply in_cells; auto).
      apply in_lists_upto; [|exact Hin]. apply NoDup_incl_length; auto.
  Qed.

  Definition measure (s : @sstate F) : nat := (2 * slack (st_g s) + length (st_open s))%nat.
  Definition TInv (s : @sstate F) : Prop := Forall (tentry (st_g s)) (st_open s).

  Lemma apply_update_term O loop limit s u : TInv s -> tupd (st_g s) u ->
    let s' := apply_update K O loop limit s u in
    TInv s' /\ gmono (st_g s) (st_g s') /\ (measure s' <= measure s)%nat.
  Proof.
    intros HT (c & [r HW] & HM & Hle & Hc). unfold apply_update.
    destruct (fltb K (up_cost u) (st_g s (up_to u))) eqn:Hlt.
    2:{ cbv zeta. split; [exact HT|]. split; [apply gmono_refl|lia]. }
    set (t := up_to u) in *. set (f := up_from u) in *.
    assert (Hgm : gmono (st_g s) (set_g (st_g s) t (up_cost u))).
    { intros x v _ HD. unfold dom in *. destruct (vec_dec x t) as [->|N].
      - rewrite set_g_eq. destruct (fltb K v (up_cost u)) eqn:Ev; [|reflexivity].
        exfalso. assert (lt v (st_g s t)); [|congruence].
        eapply (lw_le_lt_trans _ L); [|exact Hlt]. apply (lw_lt_le _ L). exact Ev.
      - rewrite set_g_neq by exact N. exact HD. }
    assert (HN : ~ In t (f :: r)).
    { intros HI. destruct (wit_prefix _ _ _ HW t HI) as (v & Hv & HD). unfold dom in HD.
      assert (lt v (st_g s t)); [|congruence].
      eapply (lw_le_lt_trans _ L); [|exact Hlt]. eapply (lw_le_trans _ L); eauto. }
    assert (HW2 : wit (set_g (st_g s) t (up_cost u)) (t :: f :: r) (up_cost u)).
    { rewrite Hc. constructor; auto.
      - eapply wit_mono; [|exact HW]. rewrite <- Hc. exact Hgm.
      - rewrite <- Hc. exact Hle.
      - unfold dom. rewrite <- Hc, set_g_eq. apply (lw_lt_irrefl _ L). }
    cbv zeta. cbn [st_g st_open]. set (open1 := mkEntry _ _ _ :: st_open s).
    set (open2 := if _ && _ then _ else _).
    assert (Hsub : forall en, In en open2 -> In en open1) by (intros en; apply open_after).
    assert (Hlen : (length open2 <= S (length (st_open s)))%nat).
    { unfold open2. destruct (_ && _); [|simpl; lia].
      destruct (take_at (o_drop O loop open1) open1) as [[a rr]|] eqn:E; [|simpl; lia].
      apply take_at_perm in E. apply Permutation_length in E. unfold open1 in E. simpl in E. lia. }
    split; [|split; [exact Hgm|]].
    - unfold TInv. cbn [st_g st_open]. apply Forall_forall. intros en Hen. apply Hsub in Hen.
      destruct Hen as [<-|Hen].
      + exists (f :: r). cbn [en_v en_raw]. exact HW2.
      + eapply tentry_mono; [exact Hgm|]. unfold TInv in HT. rewrite Forall_forall in HT. auto.
    - unfold measure. cbn [st_g st_open].
      assert (slack (set_g (st_g s) t (up_cost u)) < slack (st_g s))%nat; [|lia].
      destruct (in_walks _ _ _ HW2) as (c0 & HI & Ec).
      apply filter_length_lt with (x := (c0, t :: f :: r)); [| exact HI | |].
      + intros [c1 w] H. unfold better_than in *. simpl in *. destruct w as [|x w]; [discriminate|].
        apply andb_true_iff in H. destruct H as [H0 H]. rewrite H0. simpl.
        destruct (vec_dec x t) as [->|N].
        * rewrite set_g_eq in H. eapply (lw_le_lt_trans _ L); [|exact Hlt]. apply (lw_lt_le _ L). exact H.
        * rewrite set_g_neq in H by exact N. exact H.
      + unfold better_than. cbn [fst snd]. rewrite Ec, (wit_nonneg _ _ _ HW2). exact Hlt.
      + unfold better_than. cbn [fst snd]. rewrite Ec, set_g_eq, (lw_lt_irrefl _ L). apply andb_false_r.
  Qed.

  Lemma apply_dont_term s p : TInv s ->
    let s' := apply_dont K s p in
    TInv s' /\ gmono (st_g s) (st_g s') /\ (measure s' <= measure s)%nat.
  Proof.
    intros HT. cbv zeta.
    assert (Hn : forall v, le (fzero K) v -> fltb K v (fneg1 K) = false) by (intros; apply not_lt_neg1; auto).
    assert (Hgm : gmono (st_g s) (set_g (st_g s) p (fneg1 K))).
    { intros x v H0 HD. unfold dom in *. destruct (vec_dec x p) as [->|N].
      - rewrite set_g_eq. auto.
      - rewrite set_g_neq by exact N. exact HD. }
    split; [|split; [exact Hgm|]].
    - unfold TInv in *. cbn [st_open st_g apply_dont]. eapply Forall_impl; [|exact HT].
      intros en. apply tentry_mono. exact Hgm.
    - unfold measure. cbn [st_open st_g apply_dont].
      assert (slack (set_g (st_g s) p (fneg1 K)) <= slack (st_g s))%nat; [|lia].
      apply filter_length_le. intros [c1 w] H. unfold better_than in *. simpl in *.
      destruct w as [|x w]; [discriminate|]. apply andb_true_iff in H. destruct H as [H0 H]. rewrite H0. simpl.
      destruct (vec_dec x p) as [->|N].
      + rewrite set_g_eq, Hn in H by exact H0. discriminate.
      + rewrite set_g_neq in H by exact N. exact H.
  Qed.

  Lemma apply_updates_term O loop limit us : forall s, TInv s -> Forall (tupd (st_g s)) us ->
    let s' := fold_left (apply_update K O loop limit) us s in
    TInv s' /\ gmono (st_g s) (st_g s') /\ (measure s' <= measure s)%nat.
  Proof.
    induction us as [|u us IH]; intros s HT HF; simpl.
    - split; [exact HT|]. split; [apply gmono_refl|lia].
    - inversion HF as [|? ? H1 H2]; subst.
      destruct (apply_update_term O loop limit s u HT H1) as (A1 & A2 & A3).
      destruct (IH _ A1) as (B1 & B2 & B3).
      { eapply Forall_impl; [|exact H2]. intros a. apply tupd_mono. exact A2. }
      split; [exact B1|]. split; [eapply gmono_trans; eauto|lia].
  Qed.

  Lemma apply_donts_term ps : forall s, TInv s ->
    let s' := fold_left (apply_dont K) ps s in
    TInv s' /\ gmono (st_g s) (st_g s') /\ (measure s' <= measure s)%nat.
  Proof.
    induction ps as [|u us IH]; intros s HT; simpl.
    - split; [exact HT|]. split; [apply gmono_refl|lia].
    - destruct (apply_dont_term s u HT) as (A1 & A2 & A3).
      destruct (IH _ A1) as (B1 & B2 & B3).
      split; [exact B1|]. split; [eapply gmono_trans; eauto|lia].
  Qed.

  Lemma apply_threads_term O loop limit ws : forall s, TInv s ->
    Forall (fun w => Forall (tupd (st_g s)) (fst w)) ws ->
    let s' := fold_left (apply_thread K O loop limit) ws s in
    TInv s' /\ (measure s' <= measure s)%nat.
  Proof.
    induction ws as [|w ws IH]; intros s HT HF; simpl.
    - split; [exact HT|lia].
    - inversion HF as [|? ? H1 H2]; subst.
      destruct (apply_updates_term O loop limit (fst w) s HT H1) as (A1 & A2 & A3).
      destruct (apply_donts_term (snd w) _ A1) as (B1 & B2 & B3).
      destruct (IH _ B1) as (C1 & C2).
      { eapply Forall_impl; [|exact H2]. cbv beta. intros a. apply Forall_impl. intros u.
        apply tupd_mono. eapply gmono_trans; eauto. }
      split; [exact C1|]. cbv zeta in *.
      change (apply_thread K O loop limit s w) with (fold_left (apply_dont K) (snd w) (fold_left (apply_update K O loop limit) (fst w) s)). lia.
  Qed.

  Lemma thread_work_term g : forall cs w, Forall (tentry g) cs ->
    thread_work K nc size M g ssn e cs = Ok w -> Forall (tupd g) (fst w).
  Proof.
    induction cs as [|c cs IH]; intros w HF E; simpl in E.
    - injection E as <-. constructor.
    - inversion HF as [|? ? Hc HF']; subst.
      destruct (fltb K (g (en_v c)) (en_raw c)); [apply IH; assumption|].
      destruct (expand_list K nc size M g ssn e (en_v c) (en_raw c) (g (en_v c))
                  (m_searchGrids M (en_v c) ssn e) []) as [us|] eqn:Eu; [|discriminate]. simpl in E.
      destruct (thread_work K nc size M g ssn e cs) as [[us' dont']|] eqn:Ew; [|discriminate]. simpl in E.
      injection E as <-. pose proof (IH _ HF' eq_refl) as W1. cbn [fst] in *.
      apply Forall_app. split; [|exact W1]. apply Forall_forall. intros u Hu.
      destruct Hc as [r HW]. destruct (wit_facts _ _ _ HW) as (_ & HV & _).
      apply (expand_exact K nc size M ssn e Hnc Hsz Hmod g (en_v c) (en_raw c) us) in Hu; auto.
      2:{ apply HV. left. reflexivity. }
      destruct Hu as (n & HM & _ & Hlt & ->). exists (en_raw c). unfold upd_of. cbn [up_from up_to up_cost].
      split; [exists r; exact HW|]. split; [exact HM|]. split; [|reflexivity].
      eapply (lw_add_le _ L); [|exact Hlt]. apply HM.
  Qed.

  Lemma round_term O loop limit centers s s' : fair_sched O -> TInv s ->
    Forall (tentry (st_g s)) centers ->
    round K nc size M O loop limit ssn e centers s = Ok s' ->
    TInv s' /\ (measure s' <= measure s)%nat.
  Proof.
    intros HO HT HC E. unfold round in E.
    destruct (mapM (thread_work K nc size M (st_g s) ssn e) (o_sched O loop centers)) as [ws|] eqn:Ews; [|discriminate].
    cbn [bind] in E. injection E as <-.
    set (s1 := mkState _ _ _ _).
    assert (HT1 : TInv s1) by exact HT.
    change (measure s) with (measure s1). apply apply_threads_term; [exact HT1|].
    eapply (mapM_ok _ (Forall (tentry (st_g s)))); [|apply sched_forall; [exact HO|exact HC]|exact Ews].
    intros cs w H1 H2. eapply thread_work_term; eauto.
  Qed.

  Lemma main_loop_term O ntask limit cl : fair_sched O ->
    forall fuel loop s, TInv s -> (measure s < fuel)%nat ->
    main_loop K nc size M fuel O loop ntask limit cl ssn e s <> LFuel.
  Proof.
    intros HO. induction fuel as [|fuel IH]; intros loop s HT Hm; [lia|]. simpl.
    destruct (fetch K O loop cl ntask e [] (st_open s)) as [[fnd centers] open'] eqn:Ef.
    apply fetch_spec in Ef. destruct Ef as (taken & -> & Hf & _). simpl in *.
    destruct fnd as [v|]; [discriminate|]. destruct Hf as [P _].
    destruct (o_abort O loop); [discriminate|].
    destruct taken as [|c0 taken]; [discriminate|].
    set (s1 := mkState _ _ _ _).
    destruct (round K nc size M O loop limit ssn e (c0 :: taken) s1) as [s2|] eqn:Er; [|discriminate].
    assert (HT1 : TInv s1).
    { unfold TInv, s1 in *. cbn [st_g st_open]. apply Forall_forall. intros en Hen.
      rewrite Forall_forall in HT. apply HT. eapply Permutation_in; [symmetry; exact P|].
      apply in_or_app. right. exact Hen. }
    destruct (round_term O loop limit (c0 :: taken) s1 s2 HO HT1) as [HT2 Hm2]; [|exact Er|].
    { apply Forall_forall. intros en Hen. unfold TInv in HT.
      rewrite Forall_forall in HT. apply HT. eapply Permutation_in; [symmetry; exact P|].
      apply in_or_app. left. exact Hen. }
    apply IH; [exact HT2|]. apply Permutation_length in P. simpl in P. rewrite app_length in P.
    unfold measure in *. unfold s1 in Hm2. cbn [st_g st_open] in Hm2. lia.
  Qed.
End Term.

(** The search always finishes, for every oracle, batch size and queue limit:
    some amount of fuel suffices. *)
Lemma search_terminates {F} (K : cost_ops F) (L : cost_laws K) nc size M sts en :
  well_typed nc size M sts en ->
  Forall (fun s => fleb K (fzero K) (snd s) = true) sts ->
  (forall ss, wrapped_starts nc size sts ss -> NoDup (map fst ss)) ->
  exists fuel0, forall fuel O ntask limit cl rb, (fuel0 <= fuel)%nat -> fair_sched O ->
    search K nc size M fuel O ntask limit cl sts en rb <> SFuel.
Proof.
  intros (Hnc & Hsz & Len & HT & Hmod) H0 HND. unfold search.
  destruct sts as [|st0 sts']; [exists 0%nat; discriminate|]. set (sts := st0 :: sts') in *.
  destruct (cycleUnsigned nc en size) as [e|] eqn:Ee; [|exists 0%nat; discriminate].
  destruct (init_starts K nc size M sts en e [] (fun _ => fmax K) [] None []) as [[[[[ssn g] open] better]|]|] eqn:Ei;
    [|exists 0%nat; discriminate|exists 0%nat; discriminate].
  destruct (init_starts_spec K nc size M en e sts [] _ [] None [] ssn g open better Hnc Hsz HT Ei)
    as (ss & E1 & E2 & E3 & E4 & E5 & E6 & E7 & E8 & E9 & _). simpl in E1. subst ssn.
  set (s0 := mkState g [] open better).
  exists (S (measure K size M ss e s0)). intros fuel O ntask limit cl rb Hf HO.
  assert (HTI : TInv K nc size M ss e s0).
  { unfold TInv, s0. cbn [st_g st_open]. apply Forall_forall. intros en0 Hen.
    destruct (E5 en0 Hen) as [[]|(c & ce & A1 & A2 & _)]. exists []. rewrite A2.
    constructor; auto.
    - eapply E3; eauto.
    - apply (wrapped_costs nc size sts ss (fun c => fleb K (fzero K) c = true) E2 H0 _ _ A1).
    - unfold dom. rewrite (E9 (HND ss E2) _ _ A1). apply (lw_lt_irrefl _ L). }
  pose proof (main_loop_term K L nc size M ss e Hnc Hsz Hmod O ntask limit cl HO fuel 0 s0 HTI) as HM.
  destruct (main_loop K nc size M fuel O 0 ntask limit cl ss e s0) as [e' s'|ab' s'| |].
  - destruct (findPath_total ss (S (length (st_parents s'))) e' (st_parents s') []) as [[b l] E]; [lia|].
    unfold findPath. rewrite E. discriminate.
  - destruct rb; [|discriminate].
    destruct (findPath_total ss (S (length (st_parents s'))) (st_better s') (st_parents s') []) as [[b l] E]; [lia|].
    unfold findPath. rewrite E. discriminate.
  - exfalso. apply HM; [lia|reflexivity].
  - discriminate.
Qed.
