(** Proofs about the distance map fill. *)
From Coq Require Import Permutation ZifyBool.
From Verif Require Import Common CostAlg AStar AStarProofs AStarTerm DistMap DistMapSpec.
Local Open Scope Z_scope.

Lemma in_rect_cells lo hi c : In c (rect_cells lo hi) <-> fst lo <= fst c <= fst hi /\ snd lo <= snd c <= snd hi.
Proof.
  unfold rect_cells. rewrite in_flat_map. split.
  - intros (y & Hy & Hc). apply in_map_iff in Hc as (x & <- & Hx). apply in_range_incl in Hx, Hy. simpl. lia.
  - intros [H1 H2]. exists (snd c). split; [apply in_range_incl; lia|]. apply in_map_iff. exists (fst c).
    split; [destruct c; reflexivity|apply in_range_incl; lia].
Qed.

Section Fill.
  Context {F : Type} (K : cost_ops F) (num : F -> Prop) (D : dist_laws K num) (E : @env F) (O : @oracle F).
  Let L : cost_laws K := dl_base K num D.

  Hypothesis Hn : (1 <= e_ntask E)%nat.
  Hypothesis Hdiff : forall ds, In ds (e_diffs E) -> num (df_euclid ds) /\ fltb K (df_euclid ds) (fzero K) = false /\
    forall c, In c (df_pos ds) -> Z.min 0 (fst (df_d ds)) <= fst c <= Z.max 0 (fst (df_d ds)) /\
                                  Z.min 0 (snd (df_d ds)) <= snd c <= Z.max 0 (snd (df_d ds)).
  Hypothesis Hextra : forall ds cs, num (e_extra E ds cs) /\ fltb K (e_extra E ds cs) (fzero K) = false.
  Hypothesis Hover : finite K (e_over E) /\ fltb K (e_over E) (fzero K) = false.
  Hypothesis Horder : forall k l, Permutation (o_order O k l) l.

  Notation le a b := (fleb K a b = true).
  Notation lt a b := (fltb K a b = true).

  Lemma le_refl a : num a -> le a a.
  Proof. intros H. apply (dl_total K num D); auto. apply (lw_lt_irrefl K L). Qed.
  Lemma le_trans a b c : le a b -> le b c -> le a c.
  Proof. apply (lw_le_trans K L). Qed.
  Lemma lt_le a b : lt a b -> le a b.
  Proof. apply (lw_lt_le K L). Qed.
  Lemma nlt_le a b : num a -> num b -> fltb K a b = false -> le b a.
  Proof. apply (dl_total K num D). Qed.

  Lemma weight_ok u ds : In ds (e_diffs E) ->
    num (weight K E u ds) /\ fltb K (weight K E u ds) (fzero K) = false /\ le (df_euclid ds) (weight K E u ds).
  Proof.
    intros H. destruct (Hdiff ds H) as (N1 & Z1 & _). destruct (Hextra ds (map (cadd u) (df_pos ds))) as [N2 Z2].
    unfold weight. pose proof (dl_add_ge K num D _ _ N1 N2 Z2) as G.
    assert (Z3 : fltb K (fadd K (df_euclid ds) (e_extra E ds (map (cadd u) (df_pos ds)))) (fzero K) = false).
    { destruct (fltb K (fadd K (df_euclid ds) (e_extra E ds (map (cadd u) (df_pos ds)))) (fzero K)) eqn:X; [|reflexivity]. pose proof (lw_le_lt_trans K L _ _ _ G X). congruence. }
    rewrite Z3. split; [apply (dl_num_add K num D); auto|]. auto.
  Qed.

  (** *** reading the cells of a move *)
  Lemma collides_spec u ds : In ds (e_diffs E) -> inmap E u = true -> inmap E (cadd u (df_d ds)) = true ->
    exists b, collides E (map (cadd u) (df_pos ds)) = Ok b /\ (b = false <-> link E u ds (cadd u (df_d ds))).
  Proof.
    intros H Hu Hv. destruct (Hdiff ds H) as (_ & _ & Hb).
    assert (Hin : forall c, In c (df_pos ds) -> inmap E (cadd u c) = true).
    { intros c Hc. destruct (Hb c Hc) as [B1 B2]. unfold inmap, cadd in *. simpl in *. lia. }
    assert (G : forall l, (forall c, In c l -> inmap E (cadd u c) = true) ->
      exists b, collides E (map (cadd u) l) = Ok b /\ (b = false <-> forall c, In c l -> e_cm E (cadd u c) <= 99)).
    { intros l. induction l as [|c l IH]; intros Hl; simpl.
      - exists false. split; [reflexivity|]. split; [intros _ c []|reflexivity].
      - rewrite (Hl c (or_introl eq_refl)). simpl. destruct (99 <? e_cm E (cadd u c)) eqn:X.
        + exists true. split; [reflexivity|]. split; [discriminate|]. intros Y. specialize (Y c (or_introl eq_refl)). lia.
        + destruct IH as (b & B1 & B2); [intros c' Hc'; apply Hl; right; exact Hc'|]. exists b. split; [exact B1|].
          rewrite B2. split; intros Y; [intros c' [<-|Hc']; [lia|auto]|intros c' Hc'; apply Y; right; exact Hc']. }
    destruct (G (df_pos ds) Hin) as (b & B1 & B2). exists b. split; [exact B1|]. rewrite B2. unfold link. split.
    - intros Y. repeat split; auto.
    - intros (_ & _ & _ & Y) c Hc. apply Y. exact Hc.
  Qed.

  Lemma link_inmap u ds v : link E u ds v -> inmap E v = true.
  Proof. intros (_ & _ & H & _). exact H. Qed.

  Lemma relax_spec g p u ds : In ds (e_diffs E) -> inmap E u = true -> (forall x, num (g x)) -> num p ->
    exists r, relax K E g (p, u) ds = Ok r /\
      (forall v c, r = RUpd v c -> link E u ds v /\ c = fadd K p (weight K E u ds)) /\
      (forall v, link E u ds v -> le (g v) (fadd K (g u) (weight K E u ds)) \/
         le (g v) (fadd K p (weight K E u ds)) \/ r = RUpd v (fadd K p (weight K E u ds))).
  Proof.
    intros H Hu Ng Np. unfold relax. simpl fst. simpl snd.
    destruct (weight_ok u ds H) as (W1 & W2 & W3). destruct (Hdiff ds H) as (N1 & Z1 & _).
    destruct (inmap E (cadd u (df_d ds))) eqn:Hv; simpl.
    2:{ exists RSkip. split; [reflexivity|]. split; [discriminate|]. intros v (_ & -> & X & _). congruence. }
    destruct (fleb K (g (cadd u (df_d ds))) (fadd K (g u) (df_euclid ds))) eqn:Sk.
    { exists RSkip. split; [reflexivity|]. split; [discriminate|]. intros v (_ & -> & X & _). left.
      eapply le_trans; [exact Sk|]. apply (dl_mono_r K num D); auto. }
    destruct (collides_spec u ds H Hu Hv) as (b & B1 & B2). rewrite B1. simpl. destruct b.
    { exists REdge. split; [reflexivity|]. split; [discriminate|]. intros v X. assert (v = cadd u (df_d ds)) by apply X. subst v.
      apply B2 in X. discriminate. }
    fold (weight K E u ds).
    destruct (fltb K (fadd K p (weight K E u ds)) (g (cadd u (df_d ds)))) eqn:Im.
    - eexists. split; [reflexivity|]. split.
      + intros v c X. injection X as <- <-. split; [apply B2; reflexivity|reflexivity].
      + intros v (_ & -> & _). right. right. reflexivity.
    - exists RSkip. split; [reflexivity|]. split; [discriminate|]. intros v (_ & -> & _). right. left.
      apply nlt_le; auto. apply (dl_num_add K num D); auto.
  Qed.

  Lemma relax_all_spec g cs : (forall x, num (g x)) -> (forall p u, In (p, u) cs -> inmap E u = true /\ num p) ->
    exists us es, relax_all K E g cs = Ok (us, es) /\
      (forall v c, In (v, c) us -> exists p u ds, In (p, u) cs /\ link E u ds v /\ c = fadd K p (weight K E u ds)) /\
      (forall p u ds v, In (p, u) cs -> link E u ds v -> le (g v) (fadd K (g u) (weight K E u ds)) \/
         le (g v) (fadd K p (weight K E u ds)) \/ In (v, fadd K p (weight K E u ds)) us).
  Proof.
    intros Ng. unfold relax_all.
    assert (G1 : forall p u ds0, inmap E u = true -> num p -> (forall ds, In ds ds0 -> In ds (e_diffs E)) -> forall us0 es0,
      exists us es, foldM (fun acc ds => do r <- relax K E g (p, u) ds;
        Ok (match r with RSkip => acc | REdge => (fst acc, snd acc ++ [snd (p, u)]) | RUpd n v => (fst acc ++ [(n, v)], snd acc) end))
        ds0 (us0, es0) = Ok (us, es) /\ incl us0 us /\
      (forall v c, In (v, c) us -> In (v, c) us0 \/ exists ds, link E u ds v /\ c = fadd K p (weight K E u ds)) /\
      (forall ds v, In ds ds0 -> link E u ds v -> le (g v) (fadd K (g u) (weight K E u ds)) \/
         le (g v) (fadd K p (weight K E u ds)) \/ In (v, fadd K p (weight K E u ds)) us)).
    { intros p u ds0 Hu Np. induction ds0 as [|ds ds0 IH]; intros Hds us0 es0; simpl.
      - exists us0, es0. split; [reflexivity|]. split; [apply incl_refl|]. split; [auto|]. intros ds v [].
      - destruct (relax_spec g p u ds (Hds ds (or_introl eq_refl)) Hu Ng Np) as (r & R1 & R2 & R3). rewrite R1. simpl.
        destruct (IH (fun d H => Hds d (or_intror H))
          (fst (match r with RSkip => (us0, es0) | REdge => (us0, es0 ++ [u]) | RUpd n v => (us0 ++ [(n, v)], es0) end))
          (snd (match r with RSkip => (us0, es0) | REdge => (us0, es0 ++ [u]) | RUpd n v => (us0 ++ [(n, v)], es0) end)))
          as (us & es & U1 & U2 & U3 & U4).
        rewrite <- surjective_pairing in U1. exists us, es. split; [destruct r; exact U1|].
        assert (I : incl us0 us).
        { eapply incl_tran; [|exact U2]. destruct r; simpl; try apply incl_refl. apply incl_appl, incl_refl. }
        split; [exact I|]. split.
        + intros v c H. destruct (U3 v c H) as [X|X]; [|right; exact X]. destruct r; simpl in X; auto.
          apply in_app_iff in X as [X|[X|[]]]; [auto|]. right. exists ds. injection X as -> ->. apply R2. reflexivity.
        + intros ds' v [<-|H] Hl; [|eauto]. destruct (R3 v Hl) as [X|[X|X]]; auto. right. right. apply U2.
          subst r. simpl. apply in_app_iff. right. left. reflexivity. }
    assert (G2 : forall us0 es0, (forall p u, In (p, u) cs -> inmap E u = true /\ num p) ->
      exists us es, foldM (fun acc c => foldM (fun acc ds => do r <- relax K E g c ds;
        Ok (match r with RSkip => acc | REdge => (fst acc, snd acc ++ [snd c]) | RUpd n v => (fst acc ++ [(n, v)], snd acc) end))
        (e_diffs E) acc) cs (us0, es0) = Ok (us, es) /\ incl us0 us /\
      (forall v c, In (v, c) us -> In (v, c) us0 \/ exists p u ds, In (p, u) cs /\ link E u ds v /\ c = fadd K p (weight K E u ds)) /\
      (forall p u ds v, In (p, u) cs -> link E u ds v -> le (g v) (fadd K (g u) (weight K E u ds)) \/
         le (g v) (fadd K p (weight K E u ds)) \/ In (v, fadd K p (weight K E u ds)) us)).
    { induction cs as [|[p u] cs' IH]; intros us0 es0 Hc; cbn [foldM].
      - exists us0, es0. split; [reflexivity|]. split; [apply incl_refl|]. split; [auto|]. intros p u ds v [].
      - destruct (Hc p u (or_introl eq_refl)) as [Hu Np].
        destruct (G1 p u (e_diffs E) Hu Np (fun _ H => H) us0 es0) as (us1 & es1 & A1 & A2 & A3 & A4).
        rewrite A1. cbn [bind].
        destruct (IH us1 es1 (fun p' u' H => Hc p' u' (or_intror H))) as (us & es & B1 & B2 & B3 & B4).
        exists us, es. split; [exact B1|]. split; [eapply incl_tran; eauto|]. split.
        + intros v c H. destruct (B3 v c H) as [X|(p' & u' & ds & X & Y)].
          * destruct (A3 v c X) as [Y|(ds & Y)]; [auto|]. right. exists p, u, ds. split; [left; reflexivity|exact Y].
          * right. exists p', u', ds. split; [right; exact X|exact Y].
        + intros p' u' ds v [X|X] Hl; [|eauto]. injection X as <- <-.
          destruct (A4 ds v (proj1 Hl) Hl) as [Y|[Y|Y]]; auto. }
    intros Hc. destruct (G2 [] [] Hc) as (us & es & A1 & _ & A3 & A4). exists us, es. split; [exact A1|]. split; [|exact A4].
    intros v c H. destruct (A3 v c H) as [[]|X]. exact X.
  Qed.

  (** *** fetching *)
  Lemma take_at_cases {A} n (l : list A) : (take_at n l = None /\ l = []) \/
    exists a r, take_at n l = Some (a, r) /\ Permutation l (a :: r).
  Proof.
    destruct (take_at n l) as [[a r]|] eqn:H.
    - right. exists a, r. split; [reflexivity|]. eapply take_at_perm; eauto.
    - left. split; [reflexivity|]. destruct l as [|x l]; [reflexivity|]. exfalso.
      unfold take_at in H. assert (G : forall (l : list A) n, (n < length l)%nat -> remove_nth n l <> None).
      { clear. induction l as [|x l IH]; intros n Hn; simpl in *; [lia|]. destruct n; [discriminate|].
        specialize (IH n ltac:(lia)). destruct (remove_nth n l) as [[? ?]|]; [discriminate|exact IH]. }
      eapply G; [|exact H]. apply Nat.mod_upper_bound. simpl. lia.
  Qed.

  Lemma fetch_spec fuel : forall pick over start g n acc edges open cs edges' open',
    fetch K fuel pick over start g n acc edges open = (cs, edges', open') ->
    (forall p v, In (p, v) open -> In (p, v) open' \/ In (p, v) cs \/ lt (g v) p \/ (fltb K (g v) p = false /\ lt start (fsub K p over) /\ edges' v = true)) /\
    (forall v, edges v = true -> edges' v = true) /\ incl acc cs /\ incl open' open /\ (forall p v, In (p, v) cs -> In (p, v) acc \/ (In (p, v) open /\ fltb K (g v) p = false)) /\
    (length open' + length cs <= length open + length acc)%nat /\
    ((length open <= fuel)%nat -> (1 <= n)%nat -> cs = [] -> open' = []).
  Proof.
    induction fuel as [|fuel IH]; intros pick over start g n acc edges open cs edges' open' H; simpl in H.
    - injection H as <- <- <-. split; [auto|]. split; [auto|]. split; [apply incl_refl|]. split; [apply incl_refl|]. split; [auto|]. split; [lia|].
      intros X _ _. destruct open; [reflexivity|simpl in X; lia].
    - destruct n as [|n].
      + injection H as <- <- <-. split; [auto|]. split; [auto|]. split; [apply incl_refl|]. split; [apply incl_refl|]. split; [auto|]. split; lia.
      + destruct (take_at_cases (pick open) open) as [[T ->]|([p0 v0] & r & T & P)]; rewrite T in H.
        * injection H as <- <- <-. split; [auto|]. split; [auto|]. split; [apply incl_refl|]. split; [apply incl_refl|]. split; [auto|]. split; [lia|auto].
        * assert (Len : length open = S (length r)) by (rewrite (Permutation_length P); reflexivity).
          assert (Sub : incl r open).
          { intros x Hx. apply (Permutation_in _ (Permutation_sym P)). right. exact Hx. }
          assert (Hd0 : In (p0, v0) open) by (apply (Permutation_in _ (Permutation_sym P)); left; reflexivity).
          destruct (fltb K (g v0) p0) eqn:St.
          { destruct (IH _ _ _ _ _ _ _ _ _ _ _ H) as (A1 & Ae & A2 & A3 & A4 & A5 & A6). split; [|split; [|split; [|split; [|split; [|split]]]]].
            - intros p v Hp. apply (Permutation_in _ P) in Hp. destruct Hp as [X|X]; [injection X as <- <-; auto|auto].
            - exact Ae.
            - exact A2.
            - eapply incl_tran; eauto.
            - intros p v Hp. destruct (A4 p v Hp) as [X|[X Y]]; [auto|]. right. split; [apply Sub; exact X|exact Y].
            - lia.
            - intros X. apply A6. lia. }
          destruct (fltb K start (fsub K p0 over)) eqn:Dr.
          { destruct (IH _ _ _ _ _ _ _ _ _ _ _ H) as (A1 & Ae & A2 & A3 & A4 & A5 & A6). split; [|split; [|split; [|split; [|split; [|split]]]]].
            - intros p v Hp. apply (Permutation_in _ P) in Hp. destruct Hp as [X|X]; [|auto]. injection X as <- <-.
              right. right. right. split; [exact St|]. split; [exact Dr|]. apply Ae. unfold upd. destruct (cell_dec v0 v0); congruence.
            - intros v Hv. apply Ae. unfold upd. destruct (cell_dec v v0); auto.
            - exact A2.
            - eapply incl_tran; eauto.
            - intros p v Hp. destruct (A4 p v Hp) as [X|[X Y]]; [auto|]. right. split; [apply Sub; exact X|exact Y].
            - lia.
            - intros X. apply A6. lia. }
          destruct (IH _ _ _ _ _ _ _ _ _ _ _ H) as (A1 & Ae & A2 & A3 & A4 & A5 & A6). split; [|split; [|split; [|split; [|split; [|split]]]]].
          -- intros p v Hp. apply (Permutation_in _ P) in Hp. destruct Hp as [X|X]; [|auto]. injection X as <- <-.
             right. left. apply A2. apply in_app_iff. right. left. reflexivity.
          -- exact Ae.
          -- intros x Hx. apply A2. apply in_app_iff. auto.
          -- eapply incl_tran; eauto.
          -- intros p v Hp. destruct (A4 p v Hp) as [X|[X Y]].
             ++ apply in_app_iff in X as [X|[X|[]]]; [auto|]. injection X as <- <-. right. split; [exact Hd0|exact St].
             ++ right. split; [apply Sub; exact X|exact Y].
          -- rewrite app_length in A5. simpl in A5. lia.
          -- intros X Y Z. exfalso. assert (Q : In (p0, v0) cs) by (apply A2; apply in_app_iff; right; left; reflexivity).
             rewrite Z in Q. exact Q.
  Qed.

  (** *** routes from the entries the fill started with *)
  Variable seeds : list (F * cell).
  Hypothesis Hseeds : forall p v, In (p, v) seeds -> num p /\ inmap E v = true.

  Inductive simple (g : cell -> F) : F * cell -> list diff -> list cell -> cell -> F -> Prop :=
  | simple0 p v : In (p, v) seeds -> simple g (p, v) [] [] v p
  | simple1 sd ws vs u c ds v : simple g sd ws vs u c -> link E u ds v -> ~ In v vs -> le (g v) (fadd K c (weight K E u ds)) ->
      simple g sd (ws ++ [ds]) (v :: vs) v (fadd K c (weight K E u ds)).

  Lemma link_weight u ds v : link E u ds v -> num (weight K E u ds) /\ fltb K (weight K E u ds) (fzero K) = false.
  Proof. intros (H & _). destruct (weight_ok u ds H) as (A & B & _). auto. Qed.

  Lemma simple_num g sd ws vs v c : simple g sd ws vs v c -> num c /\ inmap E v = true /\ In sd seeds.
  Proof.
    induction 1 as [p v H|sd ws vs u c ds v H IH Hl Hnin Hle].
    - destruct (Hseeds p v H). auto.
    - destruct IH as (N & _ & Hs). destruct (link_weight _ _ _ Hl). split; [apply (dl_num_add K num D); auto|].
      split; [eapply link_inmap; eauto|exact Hs].
  Qed.
  Lemma simple_dom g sd ws vs v c : simple g sd ws vs v c -> forall x, In x vs -> le (g x) c.
  Proof.
    induction 1 as [p v H|sd ws vs u c ds v H IH Hl Hnin Hle]; [intros x []|].
    destruct (simple_num _ _ _ _ _ _ H) as [N _]. destruct (link_weight _ _ _ Hl).
    intros x [<-|Hx]; [exact Hle|]. eapply le_trans; [apply IH; exact Hx|]. apply (dl_add_ge K num D); auto.
  Qed.
  Lemma simple_mono g g' sd ws vs v c : (forall x, le (g' x) (g x)) -> simple g sd ws vs v c -> simple g' sd ws vs v c.
  Proof.
    intros Hg. induction 1 as [p v H|sd ws vs u c ds v H IH Hl Hnin Hle]; [constructor; exact H|].
    constructor; auto. eapply le_trans; [apply Hg|exact Hle].
  Qed.
  Lemma simple_route g sd ws vs v c : simple g sd ws vs v c -> route K E (snd sd) (fst sd) v c.
  Proof.
    induction 1 as [p v H|sd ws vs u c ds v H IH Hl Hnin Hle]; [constructor|]. econstructor; eauto.
  Qed.
  Lemma simple_nodup g sd ws vs v c : simple g sd ws vs v c ->
    NoDup vs /\ incl vs (all_cells E) /\ length ws = length vs /\ (forall d, In d ws -> In d (e_diffs E)).
  Proof.
    induction 1 as [p v H|sd ws vs u c ds v H IH Hl Hnin Hle].
    - split; [constructor|]. split; [intros x []|]. split; [reflexivity|intros d []].
    - destruct IH as (A & B & C & G). split; [constructor; auto|]. split.
      + intros x [<-|Hx]; [|auto]. apply in_rect_cells. pose proof (link_inmap _ _ _ Hl) as X. unfold inmap in X. simpl. lia.
      + split; [rewrite app_length; simpl; lia|]. intros d Hd. apply in_app_iff in Hd as [Hd|[<-|[]]]; [auto|apply Hl].
  Qed.

  Definition fold_walk (sd : F * cell) (ws : list diff) : cell * F :=
    fold_left (fun uc ds => (cadd (fst uc) (df_d ds), fadd K (snd uc) (weight K E (fst uc) ds))) ws (snd sd, fst sd).
  Lemma simple_fold g sd ws vs v c : simple g sd ws vs v c -> fold_walk sd ws = (v, c).
  Proof.
    induction 1 as [p v H|sd ws vs u c ds v H IH Hl Hnin Hle]; [reflexivity|].
    unfold fold_walk in *. rewrite fold_left_app, IH. simpl. destruct Hl as (_ & -> & _). reflexivity.
  Qed.

  Definition universe : list ((F * cell) * list diff) := list_prod seeds (lists_upto (length (all_cells E)) (e_diffs E)).
  Definition slack (g : cell -> F) : nat :=
    length (filter (fun sw => fltb K (snd (fold_walk (fst sw) (snd sw))) (g (fst (fold_walk (fst sw) (snd sw))))) universe).

  Lemma slack_mono g g' : (forall x, le (g' x) (g x)) -> (slack g' <= slack g)%nat.
  Proof.
    intros H. apply filter_length_le. intros x Hx. eapply (lw_lt_le_trans K L); [exact Hx|apply H].
  Qed.

  Definition entries (g : cell -> F) (open : list (F * cell)) : Prop :=
    forall p v, In (p, v) open -> exists sd ws vs, simple g sd ws vs v p.

  Lemma upd_same {A} (g : cell -> A) v c : upd g v c v = c.
  Proof. unfold upd. destruct (cell_dec v v); congruence. Qed.
  Lemma upd_other {A} (g : cell -> A) v c x : x <> v -> upd g v c x = g x.
  Proof. intros H. unfold upd. destruct (cell_dec x v); congruence. Qed.

  (** One accepted update. *)
  Lemma apply_one g u ds v p sd ws vs c : (forall x, num (g x)) -> simple g sd ws vs u p -> link E u ds v ->
    c = fadd K p (weight K E u ds) -> lt c (g v) ->
    num c /\ (forall x, le (upd g v c x) (g x)) /\ (forall x, num (upd g v c x)) /\
    simple (upd g v c) sd (ws ++ [ds]) (v :: vs) v c /\ (slack (upd g v c) < slack g)%nat.
  Proof.
    intros Ng Hs Hl -> Hlt. set (c := fadd K p (weight K E u ds)) in *.
    destruct (simple_num _ _ _ _ _ _ Hs) as (Np & _ & Hsd). destruct (link_weight _ _ _ Hl) as [W1 W2].
    assert (Nc : num c) by (apply (dl_num_add K num D); auto).
    assert (M : forall x, le (upd g v c x) (g x)).
    { intros x. destruct (cell_dec x v) as [->|N]; [rewrite upd_same; apply lt_le; exact Hlt|].
      rewrite upd_other by exact N. apply le_refl, Ng. }
    assert (Nu : forall x, num (upd g v c x)).
    { intros x. unfold upd. destruct (cell_dec x v); auto. }
    assert (Hnin : ~ In v vs).
    { intros Hin. pose proof (simple_dom _ _ _ _ _ _ Hs v Hin) as X.
      assert (Y : le (g v) c) by (eapply le_trans; [exact X|apply (dl_add_ge K num D); auto]).
      apply (dl_antisym K num D) in Y. congruence. }
    assert (S1 : simple (upd g v c) sd (ws ++ [ds]) (v :: vs) v c).
    { apply simple1; auto. - eapply simple_mono; [exact M|exact Hs]. - rewrite upd_same. apply le_refl, Nc. }
    split; [exact Nc|]. split; [exact M|]. split; [exact Nu|]. split; [exact S1|].
    pose proof (simple_fold _ _ _ _ _ _ S1) as Fo. destruct (simple_nodup _ _ _ _ _ _ S1) as (B1 & B2 & B3 & B4).
    apply filter_length_lt with (x := (sd, ws ++ [ds])).
    - intros x Hx. eapply (lw_lt_le_trans K L); [exact Hx|apply M].
    - apply in_prod; [exact Hsd|]. apply in_lists_upto; [|exact B4]. rewrite B3. apply NoDup_incl_length; assumption.
    - cbn [fst snd]. rewrite Fo. exact Hlt.
    - cbn [fst snd]. rewrite Fo. cbn [fst snd]. rewrite upd_same. apply (lw_lt_irrefl K L).
  Qed.

  Definition cand (g : cell -> F) (v : cell) (c : F) : Prop :=
    exists sd ws vs u p ds, simple g sd ws vs u p /\ link E u ds v /\ c = fadd K p (weight K E u ds).

  Lemma cand_mono g g' v c : (forall x, le (g' x) (g x)) -> cand g v c -> cand g' v c.
  Proof.
    intros H (sd & ws & vs & u & p & ds & A & B). exists sd, ws, vs, u, p, ds. split; [eapply simple_mono; eauto|exact B].
  Qed.
  Lemma entries_mono g g' open : (forall x, le (g' x) (g x)) -> entries g open -> entries g' open.
  Proof.
    intros H Ho p v Hp. destruct (Ho p v Hp) as (sd & ws & vs & A). exists sd, ws, vs. eapply simple_mono; eauto.
  Qed.

  Definition from_seed (v : cell) (c : F) : Prop := exists sd, In sd seeds /\ route K E (snd sd) (fst sd) v c.

  (** All updates of a round. *)
  Lemma apply_all us : forall g open g2 open2, (forall x, num (g x)) -> entries g open -> (forall v c, In (v, c) us -> cand g v c) ->
    fold_left (apply1 K) us (g, open) = (g2, open2) ->
    (forall x, num (g2 x)) /\ (forall x, le (g2 x) (g x)) /\ entries g2 open2 /\ incl open open2 /\
    (slack g2 + length open2 <= slack g + length open)%nat /\
    (forall x, g2 x = g x \/ (lt (g2 x) (g x) /\ In (g2 x, x) open2 /\ from_seed x (g2 x))) /\
    (forall v c, In (v, c) us -> num c /\ le (g2 v) c).
  Proof.
    induction us as [|[v c] us IH]; intros g open g2 open2 Ng He Hc Hf; cbn [fold_left] in Hf.
    - injection Hf as <- <-. split; [exact Ng|]. split; [intros x; apply le_refl, Ng|]. split; [exact He|].
      split; [apply incl_refl|]. split; [lia|]. split; [auto|]. intros v c [].
    - destruct (Hc v c (or_introl eq_refl)) as (sd & ws & vs & u & p & ds & S1 & Hl & Ec).
      destruct (simple_num _ _ _ _ _ _ S1) as (Np & _ & Hsd). destruct (link_weight _ _ _ Hl) as [W1 W2].
      assert (Nc : num c) by (rewrite Ec; apply (dl_num_add K num D); auto).
      unfold apply1 at 2 in Hf. cbn [fst snd] in Hf. destruct (fltb K c (g v)) eqn:Im.
      + destruct (apply_one g u ds v p sd ws vs c Ng S1 Hl Ec Im) as (_ & M & Nu & S2 & Sl).
        destruct (IH (upd g v c) ((c, v) :: open) g2 open2 Nu) as (A1 & A2 & A3 & A4 & A5 & A6 & A7); auto.
        { intros p' v' [X|X]; [injection X as <- <-; eauto|]. eapply entries_mono; eauto. }
        { intros v' c' H'. eapply cand_mono; [exact M|]. apply Hc. right. exact H'. }
        split; [exact A1|]. split; [intros x; eapply le_trans; [apply A2|apply M]|]. split; [exact A3|].
        split; [intros x Hx; apply A4; right; exact Hx|]. split; [simpl in A5; lia|]. split.
        * intros x. destruct (A6 x) as [X|[X Y]].
          2:{ right. split; [eapply (lw_lt_le_trans K L); [exact X|apply M]|exact Y]. }
          destruct (cell_dec x v) as [->|N].
          -- right. rewrite X, upd_same. split; [exact Im|]. split; [apply A4; left; reflexivity|]. exists sd. split; [exact Hsd|].
             exact (simple_route _ _ _ _ _ _ S2).
          -- left. rewrite X, upd_other by exact N. reflexivity.
        * intros v' c' [X|X]; [|auto]. injection X as <- <-. split; [exact Nc|]. pose proof (A2 v) as X. rewrite upd_same in X. exact X.
      + destruct (IH g open g2 open2 Ng He) as (A1 & A2 & A3 & A4 & A5 & A6 & A7); auto.
        { intros v' c' H'. apply Hc. right. exact H'. }
        split; [exact A1|]. split; [exact A2|]. split; [exact A3|]. split; [exact A4|]. split; [exact A5|]. split; [exact A6|].
        intros v' c' [X|X]; [|auto]. injection X as <- <-. split; [exact Nc|].
        eapply le_trans; [apply A2|]. apply nlt_le; auto.
  Qed.

  (** *** completeness invariant *)
  Variable s : cell.
  (** Cells left out of the bookkeeping. *)
  Variable skip : cell -> Prop.
  Definition settled (g : cell -> F) (u : cell) : Prop := forall ds v, link E u ds v -> ~ skip v -> le (g v) (fadd K (g u) (weight K E u ds)).
  Definition far (g : cell -> F) (u : cell) : Prop := lt (g s) (fsub K (g u) (e_over E)).
  Definition waiting (g : cell -> F) (open : list (F * cell)) (u : cell) : Prop := exists p, In (p, u) open /\ num p /\ le p (g u).
  Definition status (g : cell -> F) (open : list (F * cell)) (edges : cell -> bool) : Prop :=
    forall u, ~ skip u -> g u = fmax K \/ waiting g open u \/ settled g u \/ (far g u /\ edges u = true).
  Lemma edges_grow es : forall (b : cell -> bool) u, b u = true -> fold_left (fun b c => upd b c true) es b u = true.
  Proof.
    induction es as [|c es IH]; intros b u H; cbn [fold_left]; [exact H|]. apply IH. unfold upd. destruct (cell_dec u c); auto.
  Qed.

  Lemma status_round g open centers edges1 edges0 open1 us es g2 open2 k :
    (forall x, num (g x)) -> entries g open ->
    fetch K (length open) (o_pick O k) (e_over E) (g s) g (e_ntask E) [] edges0 open = (centers, edges1, open1) ->
    relax_all K E g (o_order O k centers) = Ok (us, es) -> fold_left (apply1 K) us (g, open1) = (g2, open2) ->
    (forall x, num (g2 x)) -> (forall x, le (g2 x) (g x)) -> incl open1 open2 ->
    (forall x, g2 x = g x \/ (lt (g2 x) (g x) /\ In (g2 x, x) open2 /\ from_seed x (g2 x))) ->
    (forall v c, In (v, c) us -> num c /\ le (g2 v) c) ->
    status g open edges0 -> status g2 open2 (fold_left (fun b c => upd b c true) es edges1).
  Proof.
    intros Ng He Hf Hr Ha N2 M Hi Hch Hus Hst u Hu.
    destruct (Hch u) as [Eu|(_ & Hin & _)].
    2:{ right. left. exists (g2 u). split; [exact Hin|]. split; [apply N2|apply le_refl, N2]. }
    destruct (fetch_spec _ _ _ _ _ _ _ _ _ _ _ _ Hf) as (F1 & Fe & F2 & F3 & F4 & F5 & F6).
    assert (Hcs : forall p v, In (p, v) centers -> inmap E v = true /\ num p).
    { intros p v Hp. destruct (F4 p v Hp) as [[]|[X _]]. destruct (He p v X) as (sd & ws & vs & Y).
      destruct (simple_num _ _ _ _ _ _ Y) as (A & B & _). auto. }
    assert (Hfar : far g u -> far g2 u).
    { unfold far. rewrite Eu. intros X. eapply (lw_le_lt_trans K L); [apply M|exact X]. }
    destruct (Hst u Hu) as [X|[X|[X|[X Xe]]]].
    - left. rewrite Eu. exact X.
    - destruct X as (p & Hp & Np & Hle). destruct (F1 p u Hp) as [Y|[Y|[Y|(_ & Y & Ye)]]].
      + right. left. exists p. rewrite Eu. auto.
      + right. right. left. intros ds v Hl _. destruct (link_weight _ _ _ Hl) as [W1 W2]. rewrite Eu.
        destruct (relax_all_spec g (o_order O k centers) Ng) as (us' & es' & R1 & R2 & R3).
        { intros p' u' H'. apply Hcs. eapply Permutation_in; [apply Horder|exact H']. }
        rewrite R1 in Hr. injection Hr as -> ->.
        assert (Hp' : In (p, u) (o_order O k centers)) by (eapply Permutation_in; [apply Permutation_sym, Horder|exact Y]).
        assert (Mw : le (fadd K p (weight K E u ds)) (fadd K (g u) (weight K E u ds))) by (apply (dl_mono_l K num D); auto).
        destruct (R3 p u ds v Hp' Hl) as [Z|[Z|Z]].
        * eapply le_trans; [apply M|exact Z].
        * eapply le_trans; [apply M|]. eapply le_trans; [exact Z|exact Mw].
        * destruct (Hus _ _ Z) as [_ Q]. eapply le_trans; [exact Q|exact Mw].
      + exfalso. apply (dl_antisym K num D) in Hle. congruence.
      + right. right. right. split; [|apply edges_grow, Ye]. apply Hfar. unfold far. eapply (lw_lt_le_trans K L); [exact Y|].
        destruct Hover. apply (dl_sub_mono K num D); auto.
    - right. right. left. intros ds v Hl Hv. rewrite Eu. eapply le_trans; [apply M|apply X; [exact Hl|exact Hv]].
    - right. right. right. split; [apply Hfar; exact X|apply edges_grow, Fe, Xe].
  Qed.

  (** *** the whole loop *)
  Lemma fill_loop_spec : forall fuel k g edges open, (forall x, num (g x)) -> entries g open ->
    match fill_loop K fuel O E s k g edges open with
    | FDone g' edges' => (forall x, num (g' x)) /\ (forall x, le (g' x) (g x)) /\
        (forall x, g' x = g x \/ (lt (g' x) (g x) /\ from_seed x (g' x))) /\ (status g open edges -> status g' [] edges')
    | FFuel => (fuel <= slack g + length open)%nat
    | FUB => False
    end.
  Proof.
    induction fuel as [|fuel IH]; intros k g edges open Ng He; cbn [fill_loop]; [lia|].
    destruct (fetch K (length open) (o_pick O k) (e_over E) (g s) g (e_ntask E) [] edges open) as [[centers edges1] open1] eqn:Hf.
    pose proof (fetch_spec _ _ _ _ _ _ _ _ _ _ _ _ Hf) as (F1 & Fe & F2 & F3 & F4 & F5 & F6).
    assert (Hcs : forall p v, In (p, v) centers -> inmap E v = true /\ num p).
    { intros p v Hp. destruct (F4 p v Hp) as [[]|[X _]]. destruct (He p v X) as (sd & ws & vs & Y).
      destruct (simple_num _ _ _ _ _ _ Y) as (A & B & _). auto. }
    destruct centers as [|c0 cs] eqn:Ec.
    - split; [exact Ng|]. split; [intros x; apply le_refl, Ng|]. split; [auto|].
      intros Hst u Hu. specialize (F6 (le_n _) Hn eq_refl). subst open1.
      destruct (Hst u Hu) as [X|[X|[X|[X Xe]]]]; [auto| |auto|right; right; right; split; [exact X|apply Fe, Xe]]. destruct X as (p & Hp & Np & Hle).
      destruct (F1 p u Hp) as [[]|[[]|[Y|(_ & Y & Ye)]]].
      + exfalso. apply (dl_antisym K num D) in Hle. congruence.
      + right. right. right. split; [|exact Ye]. unfold far. eapply (lw_lt_le_trans K L); [exact Y|].
        destruct Hover. apply (dl_sub_mono K num D); auto.
    - rewrite <- Ec in *.
      destruct (relax_all_spec g (o_order O k centers) Ng) as (us & es & R1 & R2 & R3).
      { intros p u H. apply Hcs. eapply Permutation_in; [apply Horder|exact H]. }
      rewrite R1. destruct (fold_left (apply1 K) us (g, open1)) as [g2 open2] eqn:Ha.
      assert (He1 : entries g open1) by (intros p v Hp; apply He, F3, Hp).
      assert (Hus : forall v c, In (v, c) us -> cand g v c).
      { intros v c H. destruct (R2 v c H) as (p & u & ds & A & B & C). apply (Permutation_in _ (Horder k centers)) in A.
        destruct (F4 p u A) as [[]|[X _]]. destruct (He p u X) as (sd & ws & vs & Y).
        exists sd, ws, vs, u, p, ds. auto. }
      destruct (apply_all us g open1 g2 open2 Ng He1 Hus Ha) as (A1 & A2 & A3 & A4 & A5 & A6 & A7).
      specialize (IH (S k) g2 (fold_left (fun b c => upd b c true) es edges1) open2 A1 A3).
      destruct (fill_loop K fuel O E s (S k) g2 (fold_left (fun b c => upd b c true) es edges1) open2) as [g' e'| |].
      + destruct IH as (B1 & B2 & B3 & B4). split; [exact B1|]. split; [intros x; eapply le_trans; eauto|]. split.
        * intros x. destruct (B3 x) as [X|[X Z]].
          -- destruct (A6 x) as [Y|(Y1 & _ & Y)]; [left; congruence|right; rewrite X; auto].
          -- right. split; [eapply (lw_lt_le_trans K L); [exact X|apply A2]|exact Z].
        * intros Hst. apply B4. exact (status_round g open centers edges1 edges open1 us es g2 open2 k Ng He Hf R1 Ha A1 A2 A4 A6 A7 Hst).
      + assert (length open1 < length open)%nat; [|lia].
        assert (X : (1 <= length centers)%nat) by (rewrite Ec; simpl; lia). simpl in F5. lia.
      + exact IH.
  Qed.
End Fill.

(** ** The map built from scratch *)
Section Create.
  Context {F : Type} (K : cost_ops F) (num : F -> Prop) (D : dist_laws K num) (E : @env F) (O : @oracle F).
  Hypothesis Hn : (1 <= e_ntask E)%nat.
  Hypothesis Hdiff : forall ds, In ds (e_diffs E) -> num (df_euclid ds) /\ fltb K (df_euclid ds) (fzero K) = false /\
    forall c, In c (df_pos ds) -> Z.min 0 (fst (df_d ds)) <= fst c <= Z.max 0 (fst (df_d ds)) /\
                                  Z.min 0 (snd (df_d ds)) <= snd c <= Z.max 0 (snd (df_d ds)).
  Hypothesis Hextra : forall ds cs, num (e_extra E ds cs) /\ fltb K (e_extra E ds cs) (fzero K) = false.
  Hypothesis Hover : finite K (e_over E) /\ fltb K (e_over E) (fzero K) = false.
  Hypothesis Horder : forall k l, Permutation (o_order O k l) l.
  Hypothesis Hg0 : num (e_g0 E) /\ finite K (e_g0 E).
  Variables (s e : cell).
  Hypothesis Hs : inmap E s = true.
  Hypothesis He : inmap E e = true.
  Let L : cost_laws K := dl_base K num D.

  Definition g_init : cell -> F := upd (fun _ => fmax K) e (e_g0 E).
  Let seeds := [(e_g0 E, e)].

  Lemma Hseeds0 : forall p v, In (p, v) seeds -> num p /\ inmap E v = true.
  Proof. intros p v [X|[]]. injection X as <- <-. split; [apply Hg0|exact He]. Qed.

  Lemma init_num x : num (g_init x).
  Proof. unfold g_init, upd. destruct (cell_dec x e); [apply Hg0|apply (dl_max K num D)]. Qed.
  Lemma init_entries : entries K E seeds g_init seeds.
  Proof. intros p v [X|[]]. injection X as <- <-. exists (e_g0 E, e), [], []. constructor. left. reflexivity. Qed.
  Lemma init_status : status K num E s (fun _ => False) g_init seeds (fun _ => false).
  Proof.
    intros u _. unfold g_init. destruct (cell_dec u e) as [->|N].
    - right. left. exists (e_g0 E). split; [left; reflexivity|]. rewrite upd_same. split; [apply Hg0|].
      apply (le_refl K num D). apply Hg0.
    - left. rewrite upd_other by exact N. reflexivity.
  Qed.

  Lemma fill_spec fuel :
    match fillCostmap K fuel O E s g_init seeds with
    | FDone g' edges' => (forall x, num (g' x)) /\ (forall x, fleb K (g' x) (g_init x) = true) /\
        (forall x, g' x = fmax K \/ route K E e (e_g0 E) x (g' x)) /\
        status K num E s (fun _ => False) g' [] edges' /\
        (forall v c, route K E e (e_g0 E) v c -> num c /\ (fltb K (g' s) (fsub K c (e_over E)) = false -> fleb K (g' v) c = true))
    | FFuel => (fuel <= slack K E seeds g_init + length seeds)%nat
    | FUB => False
    end.
  Proof.
    unfold fillCostmap.
    pose proof (fill_loop_spec K num D E O Hn Hdiff Hextra Hover Horder seeds Hseeds0 s (fun _ => False) fuel 0 g_init (fun _ => false) seeds
      init_num init_entries) as H.
    destruct (fill_loop K fuel O E s 0 g_init (fun _ : cell => false) seeds) as [g' e'| |]; [|exact H|exact H].
    destruct H as (A & B & C & St). specialize (St init_status). split; [exact A|]. split; [exact B|]. split.
    - intros x. destruct (C x) as [X|[_ (sd & [<-|[]] & X)]]; [|auto]. rewrite X. unfold g_init, upd. destruct (cell_dec x e) as [->|N]; [|auto].
      right. constructor.
    - split; [exact St|]. intros v c Hr. induction Hr as [|u c ds v Hr IH Hl].
      + split; [apply Hg0|]. intros _. specialize (B e). unfold g_init in B. rewrite upd_same in B. exact B.
      + destruct IH as [Nc IH]. destruct (link_weight K num D E Hdiff Hextra _ _ _ Hl) as [W1 W2].
        assert (Nn : num (fadd K c (weight K E u ds))) by (apply (dl_num_add K num D); auto).
        assert (Gc : fleb K c (fadd K c (weight K E u ds)) = true) by (apply (dl_add_ge K num D); auto).
        split; [exact Nn|]. intros Hnot. destruct Hover as [O1 O2].
        assert (Hnot' : fltb K (g' s) (fsub K c (e_over E)) = false).
        { destruct (fltb K (g' s) (fsub K c (e_over E))) eqn:X; [|reflexivity].
          assert (fltb K (g' s) (fsub K (fadd K c (weight K E u ds)) (e_over E)) = true); [|congruence].
          eapply (lw_lt_le_trans K L); [exact X|]. apply (dl_sub_mono K num D); auto. }
        specialize (IH Hnot').
        destruct (St u (fun f => f)) as [X|[(p & [] & _)|[X|[X _]]]].
        * assert (Y : fleb K (g' v) (fmax K) = true).
          { eapply (lw_le_trans K L); [apply B|]. unfold g_init, upd. destruct (cell_dec v e); [apply (lw_lt_le K L); apply Hg0|].
            apply (le_refl K num D). apply (dl_max K num D). }
          rewrite <- X in Y. eapply (lw_le_trans K L); [exact Y|]. eapply (lw_le_trans K L); [exact IH|exact Gc].
        * eapply (lw_le_trans K L); [apply X; [exact Hl|exact (fun f => f)]|]. apply (dl_mono_l K num D); auto.
        * exfalso. unfold far in X. assert (fltb K (g' s) (fsub K c (e_over E)) = true); [|congruence].
          eapply (lw_lt_le_trans K L); [exact X|]. apply (dl_sub_mono K num D); auto.
  Qed.
End Create.

(** ** Updating the map *)
Lemma foldM_ok {A S} (f : S -> A -> outcome S) l : (forall s a, In a l -> exists s', f s a = Ok s') ->
  forall s, exists s', foldM f l s = Ok s'.
Proof.
  induction l as [|a l IH]; intros H s; simpl; [eauto|]. destruct (H s a (or_introl eq_refl)) as [s' ->]. simpl.
  apply IH. intros s0 a0 Ha. apply H. right. exact Ha.
Qed.

Lemma remove_nth_length {A} n : forall (l : list A) a r, remove_nth n l = Some (a, r) -> In a l /\ incl r l /\ length l = S (length r).
Proof.
  intros l a r H. assert (P : Permutation l (a :: r)).
  { revert n r H. induction l as [|x l IH]; intros n r H; simpl in H; [discriminate|]. destruct n.
    - injection H as <- <-. apply Permutation_refl.
    - destruct (remove_nth n l) as [[b r']|] eqn:E; [|discriminate]. injection H as <- <-.
      eapply perm_trans; [apply perm_skip, (IH _ _ E)|apply perm_swap]. }
  split; [apply (Permutation_in _ (Permutation_sym P)); left; reflexivity|]. split.
  - intros y Hy. apply (Permutation_in _ (Permutation_sym P)). right. exact Hy.
  - rewrite (Permutation_length P). reflexivity.
Qed.

Section Erase.
  Context {F : Type} (K : cost_ops F) (num : F -> Prop) (D : dist_laws K num) (E : @env F).
  Let isM (x : F) := feqb K x (fmax K).

  Lemma erase_mono pick cmin : forall fuel fuel' k g edges open er r, (fuel <= fuel')%nat ->
    erase_loop K fuel pick E cmin k g edges open er = Some r -> erase_loop K fuel' pick E cmin k g edges open er = Some r.
  Proof.
    induction fuel as [|fuel IH]; intros fuel' k g edges open er r Hf H; [discriminate|].
    destruct fuel' as [|fuel']; [lia|]. cbn [erase_loop] in *. destruct (take_at (pick k er) er) as [[[q p] er']|]; [|exact H].
    destruct (feqb K (g p) (fmax K)); [apply IH; [lia|exact H]|].
    destruct (erase_step K E cmin p (upd g p (fmax K)) edges open er') as [[o e2] ed]. apply IH; [lia|exact H].
  Qed.

  Definition live (g : cell -> F) : nat := length (filter (fun c => negb (feqb K (g c) (fmax K))) (all_cells E)).

  (** Entries put into the open list: in the map, with the cell's value at that time. *)
  Definition fresh (g : cell -> F) (open : list (F * cell)) : Prop :=
    forall p v, In (p, v) open -> inmap E v = true /\ (p = g v \/ p = fmax K).

  Lemma erase_step_spec cmin p g edges open er open' er' edges' :
    erase_step K E cmin p g edges open er = (open', er', edges') ->
    (length er' <= length er + 4)%nat /\
    (forall q v, In (q, v) er' -> In (q, v) er \/ inmap E v = true) /\
    (forall q v, In (q, v) open' -> In (q, v) open \/ (inmap E v = true /\ q = g v)).
  Proof.
    unfold erase_step.
    assert (G : forall l open er edges, fold_left (fun '(open, er, edges) d =>
      let n := cadd p d in
      if negb (inmap E n) then (open, er, edges)
      else if feqb K (g n) (fmax K) then (open, er, edges)
      else if fltb K (g n) cmin then ((g n, n) :: open, er, edges)
      else (open, (fzero K, n) :: er, upd edges n false)) l (open, er, edges) = (open', er', edges') ->
      (length er' <= length er + length l)%nat /\
      (forall q v, In (q, v) er' -> In (q, v) er \/ inmap E v = true) /\
      (forall q v, In (q, v) open' -> In (q, v) open \/ (inmap E v = true /\ q = g v))).
    { induction l as [|d l IH]; intros open0 er0 edges0 H; cbn [fold_left] in H.
      - injection H as <- <- <-. split; [simpl; lia|]. auto.
      - cbv zeta in H. destruct (inmap E (cadd p d)) eqn:I; cbn [negb] in H.
        2:{ destruct (IH _ _ _ H) as (A & B & C). split; [simpl; lia|]. auto. }
        destruct (feqb K (g (cadd p d)) (fmax K)).
        { destruct (IH _ _ _ H) as (A & B & C). split; [simpl; lia|]. auto. }
        destruct (fltb K (g (cadd p d)) cmin).
        + destruct (IH _ _ _ H) as (A & B & C). split; [simpl; lia|]. split; [exact B|]. intros q v Hq.
          destruct (C q v Hq) as [[X|X]|X]; auto. injection X as <- <-. auto.
        + destruct (IH _ _ _ H) as (A & B & C). split; [simpl in *; lia|]. split; [|exact C]. intros q v Hq.
          destruct (B q v Hq) as [[X|X]|X]; auto. injection X as <- <-. auto. }
    intros H. exact (G neighbours open er edges H).
  Qed.

  Lemma erase_spec pick cmin g0 : forall fuel k g edges open er,
    (forall q v, In (q, v) er -> inmap E v = true) -> fresh g0 open -> (forall x, g x = g0 x \/ g x = fmax K) ->
    match erase_loop K fuel pick E cmin k g edges open er with
    | None => (fuel <= 5 * live g + length er)%nat
    | Some (g', _, open') => (forall x, g' x = g0 x \/ g' x = fmax K) /\ fresh g0 open'
    end.
  Proof.
    induction fuel as [|fuel IH]; intros k g edges open er Her Ho Hg; cbn [erase_loop]; [lia|].
    destruct (take_at (pick k er) er) as [[[q p] er']|] eqn:T; [|auto].
    unfold take_at in T. destruct (remove_nth_length _ _ _ _ T) as (T1 & T2 & T3).
    pose proof (Her _ _ T1) as Ip.
    destruct (feqb K (g p) (fmax K)) eqn:Ep.
    - assert (Her' : forall q v, In (q, v) er' -> inmap E v = true) by (intros q' v' Hq; eapply Her, T2, Hq).
      specialize (IH (S k) g edges open er' Her' Ho Hg).
      destruct (erase_loop K fuel pick E cmin (S k) g edges open er') as [[[? ?] ?]|]; [exact IH|lia].
    - destruct (erase_step K E cmin p (upd g p (fmax K)) edges open er') as [[o e2] ed] eqn:St.
      destruct (erase_step_spec _ _ _ _ _ _ _ _ _ St) as (A & B & C).
      assert (Hg' : forall x, upd g p (fmax K) x = g0 x \/ upd g p (fmax K) x = fmax K).
      { intros x. unfold upd. destruct (cell_dec x p); auto. }
      assert (Her' : forall q v, In (q, v) e2 -> inmap E v = true).
      { intros q' v' Hq. destruct (B q' v' Hq) as [X|X]; [eapply Her, T2, X|exact X]. }
      assert (Ho' : fresh g0 o).
      { intros q' v' Hq. destruct (C q' v' Hq) as [X|[X ->]]; [apply Ho, X|]. split; [exact X|apply Hg']. }
      specialize (IH (S k) _ ed o e2 Her' Ho' Hg').
      destruct (erase_loop K fuel pick E cmin (S k) (upd g p (fmax K)) ed o e2) as [[[? ?] ?]|]; [exact IH|].
      assert (live (upd g p (fmax K)) < live g)%nat; [|lia].
      apply filter_length_lt with (x := p).
      + intros x. unfold upd. destruct (cell_dec x p); [rewrite (dl_max_eq K num D); discriminate|auto].
      + apply in_rect_cells. unfold inmap in Ip. simpl. lia.
      + rewrite Ep. reflexivity.
      + rewrite upd_same, (dl_max_eq K num D). reflexivity.
  Qed.

  Lemma rect_min_spec g lo hi : (forall c, In c (rect_cells lo hi) -> inmap E c = true) ->
    exists p c, rect_min K E g lo hi = Ok (p, c) /\ (c = fmax K \/ (inmap E p = true /\ c = g p)).
  Proof.
    unfold rect_min. intros H.
    assert (G : forall l acc, (forall c, In c l -> inmap E c = true) ->
      (snd acc = fmax K \/ (inmap E (fst acc) = true /\ snd acc = g (fst acc))) ->
      exists acc', foldM (fun acc c => if negb (inmap E c) then UB else Ok (if fltb K (g c) (snd acc) then (c, g c) else acc)) l acc = Ok acc' /\
        (snd acc' = fmax K \/ (inmap E (fst acc') = true /\ snd acc' = g (fst acc')))).
    { induction l as [|c l IH]; intros acc Hl Ha; simpl; [eauto|]. rewrite (Hl c (or_introl eq_refl)). simpl.
      apply IH; [intros c' Hc'; apply Hl; right; exact Hc'|]. destruct (fltb K (g c) (snd acc)); [|exact Ha].
      right. simpl. split; [apply Hl; left; reflexivity|reflexivity]. }
    destruct (G (rect_cells lo hi) ((0, 0), fmax K) H (or_introl eq_refl)) as ([p c] & A & B). exists p, c. split; [exact A|exact B].
  Qed.
End Erase.

Section Update.
  Context {F : Type} (K : cost_ops F) (num : F -> Prop) (D : dist_laws K num) (E : @env F) (O : @oracle F).
  Hypothesis Hn : (1 <= e_ntask E)%nat.
  Hypothesis Hdiff : forall ds, In ds (e_diffs E) -> num (df_euclid ds) /\ fltb K (df_euclid ds) (fzero K) = false /\
    forall c, In c (df_pos ds) -> Z.min 0 (fst (df_d ds)) <= fst c <= Z.max 0 (fst (df_d ds)) /\
                                  Z.min 0 (snd (df_d ds)) <= snd c <= Z.max 0 (snd (df_d ds)).
  Hypothesis Hextra : forall ds cs, num (e_extra E ds cs) /\ fltb K (e_extra E ds cs) (fzero K) = false.
  Hypothesis Hover : finite K (e_over E) /\ fltb K (e_over E) (fzero K) = false.
  Hypothesis Horder : forall k l, Permutation (o_order O k l) l.
  Hypothesis Hg0 : num (e_g0 E) /\ finite K (e_g0 E).
  Let L : cost_laws K := dl_base K num D.

  (** Every value is "unreachable" or the cost of a real route from the goal (the goal itself counted as [e_g0] or 0). *)
  Definition route_values (e : cell) (g : cell -> F) : Prop :=
    forall v, num (g v) /\ fleb K (g v) (fmax K) = true /\
      (g v = fmax K \/ route K E e (e_g0 E) v (g v) \/ route K E e (fzero K) v (g v)).

  Lemma route_trans e c0 u c : route K E e c0 u c -> forall v c', route K E u c v c' -> route K E e c0 v c'.
  Proof. intros H v c' H'. induction H'; [exact H|]. econstructor; eauto. Qed.

  Lemma route_ge e c0 v c : num c0 -> route K E e c0 v c -> num c /\ fleb K c0 c = true.
  Proof.
    intros N. induction 1 as [|u c ds v H [IH1 IH2] Hl]; [split; [exact N|apply (le_refl K num D); exact N]|].
    destruct (link_weight K num D E Hdiff Hextra _ _ _ Hl). split; [apply (dl_num_add K num D); auto|].
    eapply (lw_le_trans K L); [exact IH2|]. apply (dl_add_ge K num D); auto.
  Qed.

  (** A fill from entries that carry values of the map. *)
  Lemma refill_spec e s g open fuel : inmap E e = true -> route_values e g ->
    (forall p v, In (p, v) open -> inmap E v = true /\ (p = fmax K \/ p = g v \/ (v = e /\ p = e_g0 E))) ->
    match fillCostmap K fuel O E s g open with
    | FDone g' _ => route_values e g'
    | FFuel => (fuel <= slack K E open g + length open)%nat
    | FUB => False
    end.
  Proof.
    intros He Hv Ho.
    assert (Hseeds : forall p v, In (p, v) open -> num p /\ inmap E v = true).
    { intros p v Hp. destruct (Ho p v Hp) as [A [->|[->|[_ ->]]]]; split; auto; [apply (dl_max K num D)|apply Hv|apply Hg0]. }
    assert (Hent : entries K E open g open).
    { intros p v Hp. exists (p, v), [], []. constructor. exact Hp. }
    pose proof (fill_loop_spec K num D E O Hn Hdiff Hextra Hover Horder open Hseeds s (fun _ => False) fuel 0 g (fun _ => false) open
      (fun x => proj1 (Hv x)) Hent) as H.
    unfold fillCostmap. destruct (fill_loop K fuel O E s 0 g (fun _ => false) open) as [g' e'| |]; [|exact H|exact H].
    destruct H as (A & B & C & _). intros v. split; [apply A|]. split; [eapply (lw_le_trans K L); [apply B|apply Hv]|].
    destruct (C v) as [->|[Lt ([p u] & Hin & Hr)]]; [apply Hv|]. simpl in Hr.
    destruct (Ho p u Hin) as [_ [->|[->|[-> ->]]]].
    - exfalso. destruct (route_ge _ _ _ _ (dl_max K num D) Hr) as [_ X].
      destruct (Hv v) as (_ & Y & _). pose proof (lw_lt_le_trans K L _ _ _ Lt Y) as Z.
      apply (dl_antisym K num D) in X. congruence.
    - destruct (Hv u) as (_ & _ & [X|[X|X]]).
      + exfalso. rewrite X in Hr. destruct (route_ge _ _ _ _ (dl_max K num D) Hr) as [_ Q].
        destruct (Hv v) as (_ & Y & _). pose proof (lw_lt_le_trans K L _ _ _ Lt Y) as Z.
        apply (dl_antisym K num D) in Q. congruence.
      + right. left. eapply route_trans; eauto.
      + right. right. eapply route_trans; eauto.
    - right. left. exact Hr.
  Qed.

  Lemma create_values s e fuel d : inmap E s = true -> inmap E e = true ->
    match create K fuel O E d s e with
    | Done d' => dm_goal d' = e /\ route_values e (dm_g d')
    | OutOfFuel => (fuel <= slack K E [(e_g0 E, e)] (g_init K E e) + 1)%nat
    | Undefined => False
    end.
  Proof.
    intros Hs He. unfold create. rewrite Hs, He. cbn [negb andb].
    assert (Hv : route_values e (g_init K E e)).
    { intros v. unfold g_init, upd. destruct (cell_dec v e) as [->|N].
      - split; [apply Hg0|]. split; [apply (lw_lt_le K L), Hg0|]. right. left. constructor.
      - split; [apply (dl_max K num D)|]. split; [apply (le_refl K num D), (dl_max K num D)|auto]. }
    pose proof (refill_spec e s (g_init K E e) [(e_g0 E, e)] fuel He Hv) as H.
    fold (g_init K E e). destruct (fillCostmap K fuel O E s (g_init K E e) [(e_g0 E, e)]) as [g' e'| |].
    - split; [reflexivity|]. cbn [dm_g]. intros v. unfold upd. destruct (cell_dec v e) as [->|N].
      + split; [apply (dl_zero K num D)|]. split; [|right; right; constructor].
        destruct Hover as [O1 O2]. apply (dl_total K num D); try apply (dl_max K num D); try apply (dl_zero K num D).
        destruct (fltb K (fmax K) (fzero K)) eqn:X; [|reflexivity].
        unfold finite in O1. pose proof (lw_lt_le_trans K L _ _ _ O1 (lw_lt_le K L _ _ X)). congruence.
      + apply H. intros p u [X|[]]. injection X as <- <-. auto.
    - apply H. intros p u [X|[]]. injection X as <- <-. auto.
    - apply H. intros p u [X|[]]. injection X as <- <-. auto.
  Qed.

  Lemma update_values s e lo hi d : inmap E s = true -> inmap E e = true -> (forall c, In c (rect_cells lo hi) -> inmap E c = true) ->
    (dm_goal d = e -> route_values e (dm_g d)) ->
    (forall fuel, match update K fuel O E d s e lo hi with Done d' => dm_goal d' = e /\ route_values e (dm_g d') | OutOfFuel => True | Undefined => False end) /\
    exists N, forall fuel, (N <= fuel)%nat -> exists d', update K fuel O E d s e lo hi = Done d'.
  Proof.
    intros Hs He Hr Hv. unfold update.
    assert (Cr : (forall fuel, match create K fuel O E d s e with Done d' => dm_goal d' = e /\ route_values e (dm_g d') | OutOfFuel => True | Undefined => False end) /\
      exists N, forall fuel, (N <= fuel)%nat -> exists d', create K fuel O E d s e = Done d').
    { split.
      - intros fuel. pose proof (create_values s e fuel d Hs He) as H. destruct (create K fuel O E d s e); auto.
      - exists (2 + slack K E [(e_g0 E, e)] (g_init K E e))%nat. intros fuel Hf. pose proof (create_values s e fuel d Hs He) as H.
        destruct (create K fuel O E d s e) as [d'| |]; [eauto|lia|tauto]. }
    destruct (cell_dec e (dm_goal d)) as [Eg|Eg]; cbn [negb]; [|exact Cr].
    specialize (Hv (eq_sym Eg)).
    destruct (rect_min_spec K E (dm_g d) lo hi Hr) as (pmin & cmin & R1 & R2). rewrite R1.
    destruct (feqb K cmin (fzero K)); [exact Cr|]. rewrite Hs, He. cbn [negb andb].
    set (er := (if feqb K cmin (fmax K) then [] else [(fzero K, pmin)]) ++ (if fltb K cmin (dm_g d s) then [(fzero K, s)] else [])).
    assert (Her : forall q v, In (q, v) er -> inmap E v = true).
    { intros q v H. unfold er in H. apply in_app_iff in H as [H|H].
      - destruct (feqb K cmin (fmax K)) eqn:X; [destruct H|]. destruct H as [H|[]]. injection H as <- <-.
        destruct R2 as [->|[R2 _]]; [rewrite (dl_max_eq K num D) in X; discriminate|exact R2].
      - destruct (fltb K cmin (dm_g d s)); [|destruct H]. destruct H as [H|[]]. injection H as <- <-. exact Hs. }
    pose proof (fun fuel => erase_spec K num D E (o_pick O) cmin (dm_g d) fuel 0 (dm_g d) (dm_edges d) [] er Her
      (fun p v (H : In (p, v) []) => match H with end) (fun x => or_introl eq_refl)) as Her2.
    assert (Step : forall g edges open0, (forall x, g x = dm_g d x \/ g x = fmax K) -> fresh K E (dm_g d) open0 ->
      let open := map (fun c => (g c, c)) (filter edges (all_cells E)) ++ open0 in
      let open := match open with [] => [(e_g0 E, e)] | _ => open end in forall fuel,
      match fillCostmap K fuel O E s g open with
      | FDone g' _ => route_values e g'
      | FFuel => (fuel <= slack K E open g + length open)%nat
      | FUB => False
      end).
    { intros g edges open0 Hg Hf open1 open fuel.
      assert (Hv' : route_values e g).
      { intros v. destruct (Hg v) as [-> | ->]; [apply Hv|]. split; [apply (dl_max K num D)|].
        split; [apply (le_refl K num D), (dl_max K num D)|auto]. }
      (* entries carry the old values *)
      assert (Hs2 : forall p v, In (p, v) open -> inmap E v = true /\ num p /\
        (p = fmax K \/ route K E e (e_g0 E) v p \/ route K E e (fzero K) v p)).
      { intros p v H. unfold open in H.
        assert (H' : In (p, v) open1 \/ (p, v) = (e_g0 E, e)).
        { destruct open1; [destruct H as [H|[]]; auto|auto]. }
        destruct H' as [H'|H'].
        - unfold open1 in H'. apply in_app_iff in H' as [H'|H'].
          + apply in_map_iff in H' as (c & X & Hc). injection X as <- <-. apply filter_In in Hc as [Hc _].
            apply in_rect_cells in Hc. simpl in Hc. split; [unfold inmap; lia|]. split; apply Hv'.
          + destruct (Hf p v H') as [X [->| ->]]; split; auto; split; try apply Hv; auto. apply (dl_max K num D).
        - injection H' as -> ->. split; [exact He|]. split; [apply Hg0|]. right. left. constructor. }
      assert (Hent : entries K E open g open).
      { intros p v Hp. exists (p, v), [], []. constructor. exact Hp. }
      pose proof (fill_loop_spec K num D E O Hn Hdiff Hextra Hover Horder open
        (fun p v H => conj (proj1 (proj2 (Hs2 p v H))) (proj1 (Hs2 p v H))) s (fun _ => False) fuel 0 g (fun _ => false) open
        (fun x => proj1 (Hv' x)) Hent) as H.
      unfold fillCostmap. destruct (fill_loop K fuel O E s 0 g (fun _ => false) open) as [g' e'| |]; [|exact H|exact H].
      destruct H as (A & B & C & _). intros v. split; [apply A|]. split; [eapply (lw_le_trans K L); [apply B|apply Hv']|].
      destruct (C v) as [->|[Lt ([p u] & Hin & Hro)]]; [apply Hv'|]. simpl in Hro.
      destruct (Hs2 p u Hin) as (_ & _ & [->|[X|X]]).
      - exfalso. destruct (route_ge _ _ _ _ (dl_max K num D) Hro) as [_ X].
        destruct (Hv' v) as (_ & Y & _). pose proof (lw_lt_le_trans K L _ _ _ Lt Y) as Z.
        apply (dl_antisym K num D) in X. congruence.
      - right. left. eapply route_trans; eauto.
      - right. right. eapply route_trans; eauto. }
    split.
    - intros fuel. specialize (Her2 fuel). destruct (erase_loop K fuel (o_pick O) E cmin 0 (dm_g d) (dm_edges d) [] er) as [[[g edges] open0]|]; [|exact I].
      destruct Her2 as [A B]. specialize (Step g edges open0 A B fuel). cbv zeta in Step.
      destruct (fillCostmap K fuel O E s g _) as [g' e'| |]; [split; [reflexivity|exact Step]|exact I|exact Step].
    - destruct (erase_loop K (S (5 * live K E (dm_g d) + length er)) (o_pick O) E cmin 0 (dm_g d) (dm_edges d) [] er) as [[[g edges] open0]|] eqn:Ee.
      2:{ specialize (Her2 (S (5 * live K E (dm_g d) + length er))). rewrite Ee in Her2. lia. }
      pose proof (Her2 (S (5 * live K E (dm_g d) + length er))) as Q. rewrite Ee in Q. destruct Q as [A B].
      specialize (Step g edges open0 A B). cbv zeta in Step.
      set (open := match map (fun c => (g c, c)) (filter edges (all_cells E)) ++ open0 with [] => [(e_g0 E, e)] | _ => map (fun c => (g c, c)) (filter edges (all_cells E)) ++ open0 end) in *.
      exists (S (5 * live K E (dm_g d) + length er) + S (slack K E open g + length open))%nat. intros fuel Hf.
      assert (Hf' : (S (5 * live K E (dm_g d) + length er) <= fuel)%nat) by lia.
      rewrite (erase_mono K E (o_pick O) cmin _ fuel _ _ _ _ _ _ Hf' Ee). cbv zeta.
      fold open. specialize (Step fuel). destruct (fillCostmap K fuel O E s g open) as [g' e'| |]; [eauto|lia|tauto].
  Qed.
End Update.
