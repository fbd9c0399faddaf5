(** C12: the remembered-obstacle costmap. *)
From Coq Require Import ZifyBool.
From Verif Require Import Common DistMap DistMapProofs Bbf.
Local Open Scope Z_scope.

(** ** Specification: each cell on its own *)
Section Spec.
  Context {T : Type} (P : filter_ops T).

  (** What one observation means for the cell [c]: cells nearer than [rmin] do not count as hit, cells farther than [rmax] and
      unknown cells are not observed. *)
  Definition seen (cm : cell -> Z) (center : cell) (hit miss : T) (rmin rmax : Z) (c : cell) : option T :=
    let dx := fst c - fst center in
    let dy := snd c - snd center in
    let r := dx * dx + dy * dy in
    if (0 <=? rmax) && (r <=? rmax * rmax) && (0 <=? cm c) then
      if cm c =? 100 then if rmin * rmin <=? r then Some hit else None else Some miss
    else None.
  (** A cell: its filter and the cost shown. *)
  Definition cell_step (c : cell) (s : T * Z) (x : bcall) : T * Z :=
    match x with
    | BClear => (f_init P, 0)
    | BRemember cm ce hit miss rmin rmax =>
        match seen cm ce hit miss rmin rmax c with Some o => (f_upd P (fst s) o, snd s) | None => s end
    | BRefresh => (fst s, f_pct P (fst s))
    end.
  Definition cell_run (c : cell) (cs : list bcall) : T * Z := fold_left (cell_step c) cs (f_init P, 0).
End Spec.

Section Proofs.
  Context {T : Type} (P : filter_ops T).
  Hypothesis Hinit : f_pct P (f_init P) = 0.

  Lemma in_range2 r p : In p (list_prod (range_incl (- r) r) (range_incl (- r) r)) <-> - r <= fst p <= r /\ - r <= snd p <= r.
  Proof. destruct p as [x y]. rewrite in_prod_iff, !in_range_incl. simpl. tauto. Qed.

  Lemma NoDup_prod {A B} (l : list A) (l' : list B) : NoDup l -> NoDup l' -> NoDup (list_prod l l').
  Proof.
    intros H H'. induction l as [|a l IH]; simpl; [constructor|]. inversion H; subst.
    assert (N : forall (l1 l2 : list (A * B)), NoDup l1 -> NoDup l2 -> (forall x, In x l1 -> ~ In x l2) -> NoDup (l1 ++ l2)).
    { clear. induction l1 as [|x l1 IH]; intros l2 N1 N2 D; simpl; [exact N2|]. inversion N1; subst. constructor.
      - rewrite in_app_iff. intros [X|X]; [tauto|]. apply (D x (or_introl eq_refl) X).
      - apply IH; auto. intros y Hy. apply D. right. exact Hy. }
    apply N; auto.
    - clear - H'. induction l' as [|b l' IH]; simpl; [constructor|]. inversion H'; subst. constructor; [|auto].
      rewrite in_map_iff. intros (y & X & Y). injection X as <-. tauto.
    - intros x Hx Hy. apply in_map_iff in Hx as (y & <- & _). apply in_prod_iff in Hy. tauto.
  Qed.

  Lemma sq_bound a b m : 0 <= m -> a * a + b * b <= m * m -> (- m <= a <= m) /\ (- m <= b <= m).
  Proof.
    intros Hm H. assert (0 <= a * a) by nia. assert (0 <= b * b) by nia.
    assert (G : forall x, x * x <= m * m -> - m <= x <= m) by (intros x Hx; nia).
    split; apply G; lia.
  Qed.

  (** The effect of an observation on one cell. *)
  Lemma remember_odds b cm ce hit miss rmin rmax c : in_bbf b c = true ->
    b_odds (remember P b cm ce hit miss rmin rmax) c =
      match seen cm ce hit miss rmin rmax c with Some o => f_upd P (b_odds b c) o | None => b_odds b c end.
  Proof.
    intros Hc. simpl. set (p0 := (fst c - fst ce, snd c - snd ce)).
    assert (Ec : cadd ce p0 = c) by (unfold cadd, p0; destruct c; simpl; f_equal; lia).
    assert (Hobs : forall odds p, p <> p0 -> observe P b cm ce hit miss rmin rmax odds p c = odds c).
    { intros odds p Hp. unfold observe.
      assert (N : c <> cadd ce p).
      { intros ->. apply Hp. unfold p0, cadd. simpl. destruct p; simpl. f_equal; lia. }
      repeat match goal with |- context [if ?x then _ else _] => destruct x end; try reflexivity; apply upd_other; exact N. }
    assert (Skip : forall l odds, ~ In p0 l -> fold_left (observe P b cm ce hit miss rmin rmax) l odds c = odds c).
    { induction l as [|p l IH]; intros odds H; simpl; [reflexivity|]. rewrite IH; [apply Hobs|]; intros X; apply H; [left; auto|right; exact X]. }
    destruct (in_dec cell_dec p0 (list_prod (range_incl (- rmax) rmax) (range_incl (- rmax) rmax))) as [Hin|Hin].
    - assert (B : - rmax <= fst p0 <= rmax) by (apply in_range2 in Hin; apply Hin).
      apply in_split in Hin as (l1 & l2 & El). rewrite El.
      assert (Nd : NoDup (list_prod (range_incl (- rmax) rmax) (range_incl (- rmax) rmax))) by (apply NoDup_prod; apply range_incl_NoDup).
      rewrite El in Nd. apply NoDup_remove_2 in Nd. rewrite in_app_iff in Nd.
      rewrite fold_left_app. cbn [fold_left]. rewrite Skip by tauto.
      pose proof (Skip l1 (b_odds b) ltac:(tauto)) as E1.
      set (o1 := fold_left (observe P b cm ce hit miss rmin rmax) l1 (b_odds b)) in *.
      unfold observe, seen. rewrite Ec, Hc. cbn [negb]. unfold p0 in *. cbn [fst snd] in *.
      set (r := (fst c - fst ce) * (fst c - fst ce) + (snd c - snd ce) * (snd c - snd ce)).
      replace (0 <=? rmax) with true by lia. cbn [andb].
      destruct (rmax * rmax <? r) eqn:E2; [replace (r <=? rmax * rmax) with false by lia; simpl; exact E1|].
      replace (r <=? rmax * rmax) with true by lia. cbn [andb].
      destruct (cm c <? 0) eqn:E3; [replace (0 <=? cm c) with false by lia; exact E1|].
      replace (0 <=? cm c) with true by lia.
      destruct (cm c =? 100); [destruct (rmin * rmin <=? r)|]; rewrite ?upd_same; rewrite E1; reflexivity.
    - rewrite Skip by exact Hin. unfold seen.
      destruct ((0 <=? rmax) && _ && _) eqn:E; [|reflexivity]. exfalso. apply Hin. apply in_range2. unfold p0. simpl. apply sq_bound; lia.
  Qed.

  (** The refresh writes every cell of the window, and the window lies in the map. *)
  Lemma refresh_spec b : 0 <= fst (b_min b) -> 0 <= snd (b_min b) -> fst (b_max b) < b_w b -> snd (b_max b) < b_h b ->
    exists b', updateCostmap P b = Ok b' /\ b_w b' = b_w b /\ b_h b' = b_h b /\ b_odds b' = b_odds b /\
      b_min b' = (b_w b, b_h b) /\ b_max b' = (-1, -1) /\
      forall c, b_cost b' c = (if (fst (b_min b) <=? fst c) && (fst c <=? fst (b_max b)) && (snd (b_min b) <=? snd c) && (snd c <=? snd (b_max b))
                               then f_pct P (b_odds b c) else b_cost b c).
  Proof.
    intros H1 H2 H3 H4. unfold updateCostmap.
    assert (G : forall l cost, (forall c, In c l -> in_bbf b c = true) ->
      exists cost', foldM (fun cost c => if in_bbf b c then Ok (upd cost c (f_pct P (b_odds b c))) else UB) l cost = Ok cost' /\
        (forall c, In c l -> cost' c = f_pct P (b_odds b c)) /\ (forall c, ~ In c l -> cost' c = cost c)).
    { induction l as [|x l IH]; intros cost Hl; simpl; [exists cost; firstorder|].
      rewrite (Hl x (or_introl eq_refl)). simpl.
      destruct (IH (upd cost x (f_pct P (b_odds b x))) (fun c H => Hl c (or_intror H))) as (cost' & A & B & C).
      exists cost'. split; [exact A|]. split.
      - intros c [<-|Hc]; [|auto]. destruct (in_dec cell_dec x l) as [I|I]; [auto|]. rewrite C by exact I. apply upd_same.
      - intros c Hc. rewrite C by tauto. apply upd_other. intros ->. apply Hc. left. reflexivity. }
    destruct (G (rect_cells (b_min b) (b_max b)) (b_cost b)) as (cost' & A & B & C).
    { intros c Hc. apply in_rect_cells in Hc. unfold in_bbf. lia. }
    rewrite A. simpl. eexists. split; [reflexivity|]. simpl. repeat split; auto.
    intros c. destruct (_ && _ && _ && _) eqn:E.
    - apply B. apply in_rect_cells. lia.
    - apply C. rewrite in_rect_cells. lia.
  Qed.

  (** Invariant: the window is inside the map and every cell outside it is up to date; inside, the shown value is the one of the
      specification. *)
  Definition binv (w h : Z) (cs : list bcall) (b : bbf) : Prop :=
    b_w b = w /\ b_h b = h /\ 0 <= fst (b_min b) /\ 0 <= snd (b_min b) /\ fst (b_max b) < w /\ snd (b_max b) < h /\
    (forall c, in_bbf b c = true -> b_odds b c = fst (cell_run P c cs) /\ b_cost b c = snd (cell_run P c cs) /\
       ((fst (b_min b) <= fst c <= fst (b_max b) /\ snd (b_min b) <= snd c <= snd (b_max b)) \/ b_cost b c = f_pct P (b_odds b c))).

  Lemma brun_inv w h cs : 0 < w -> 0 < h -> exists b, brun P w h cs = Ok b /\ binv w h cs b.
  Proof.
    intros Hw Hh. induction cs as [|x cs IH] using rev_ind.
    - exists (reset P w h). split; [reflexivity|]. unfold binv, reset, clear; simpl. repeat split; try lia; auto.
    - destruct IH as (b & E & Iw & Ih & I1 & I2 & I3 & I4 & I5). unfold brun in *. rewrite foldM_app, E. simpl.
      assert (R : forall c, cell_run P c (cs ++ [x]) = cell_step P c (cell_run P c cs) x)
        by (intros c; unfold cell_run; rewrite fold_left_app; reflexivity).
      destruct x as [|cm ce hit miss rmin rmax|]; cbn [bstep].
      + eexists. split; [reflexivity|]. unfold binv, clear; simpl. rewrite Iw, Ih. split; [reflexivity|]. split; [reflexivity|].
        split; [lia|]. split; [lia|]. split; [lia|]. split; [lia|]. intros c Hc. rewrite R. simpl. auto.
      + eexists. split; [reflexivity|]. unfold binv.
        split; [exact Iw|]. split; [exact Ih|]. simpl. split; [lia|]. split; [lia|]. split; [lia|]. split; [lia|].
        intros c Hc. destruct (I5 c Hc) as (J1 & J2 & J3).
        pose proof (remember_odds b cm ce hit miss rmin rmax c Hc) as Q. simpl in Q. rewrite Q, R. cbn [cell_step].
        assert (X : in_bbf b c = true) by exact Hc. unfold in_bbf in X. rewrite Iw, Ih in X.
        destruct (seen cm ce hit miss rmin rmax c) as [o|] eqn:S1; simpl.
        * rewrite J1. split; [reflexivity|]. split; [exact J2|]. left.
          unfold seen in S1. destruct ((0 <=? rmax) && _ && _) eqn:E1; [|discriminate].
          assert (B : - rmax <= fst c - fst ce <= rmax /\ - rmax <= snd c - snd ce <= rmax) by (apply sq_bound; lia). lia.
        * split; [exact J1|]. split; [exact J2|]. destruct J3 as [J3|J3]; [left; lia|right; exact J3].
      + destruct (refresh_spec b) as (b' & U1 & U2 & U3 & U4 & U5 & U6 & U7); try lia.
        rewrite U1. simpl. exists b'. split; [reflexivity|]. unfold binv. rewrite U2, U3, U5, U6. simpl.
        split; [exact Iw|]. split; [exact Ih|]. split; [lia|]. split; [lia|]. split; [lia|]. split; [lia|].
        intros c Hc. assert (Hc' : in_bbf b c = true) by (unfold in_bbf in *; rewrite <- U2, <- U3; exact Hc).
        destruct (I5 c Hc') as (J1 & J2 & J3). rewrite U4, U7, R. cbn [cell_step fst snd]. split; [exact J1|].
        destruct (_ && _ && _ && _) eqn:E1.
        * rewrite J1. auto.
        * assert (Q : b_cost b c = f_pct P (b_odds b c)) by (destruct J3 as [J3|J3]; [lia|exact J3]).
          rewrite Q, J1. auto.
  Qed.
End Proofs.

(** C12: after every history, reading a cell of the map gives the percentage of that cell's own filter at the last refresh (or 0
    if there was none since the last clear), and nothing is read or written outside the map. *)
Theorem C12_shown_cost_is_the_cells_own_filter {T} (P : filter_ops T) w h cs : f_pct P (f_init P) = 0 -> 0 < w -> 0 < h ->
  exists b, brun P w h cs = Ok b /\
    forall c, 0 <= fst c < w -> 0 <= snd c < h -> getCost b c = Ok (snd (cell_run P c cs)).
Proof.
  intros Hi Hw Hh. destruct (brun_inv P Hi w h cs Hw Hh) as (b & E & Iw & Ih & _ & _ & _ & _ & I5). exists b. split; [exact E|].
  intros c Hx Hy. unfold getCost. assert (Hc : in_bbf b c = true) by (unfold in_bbf; rewrite Iw, Ih; lia).
  rewrite Hc. f_equal. apply I5. exact Hc.
Qed.

(** Directly after a refresh the shown value is the current one. *)
Theorem C12_refresh_is_complete {T} (P : filter_ops T) w h cs : f_pct P (f_init P) = 0 -> 0 < w -> 0 < h ->
  exists b, brun P w h (cs ++ [BRefresh]) = Ok b /\
    forall c, 0 <= fst c < w -> 0 <= snd c < h -> getCost b c = Ok (f_pct P (fst (cell_run P c cs))).
Proof.
  intros Hi Hw Hh. destruct (C12_shown_cost_is_the_cells_own_filter P w h (cs ++ [BRefresh]) Hi Hw Hh) as (b & E & G).
  exists b. split; [exact E|]. intros c Hx Hy. rewrite (G c Hx Hy). unfold cell_run. rewrite fold_left_app. reflexivity.
Qed.

(** Two cells that were observed alike show the same cost; observations of other cells do not matter. *)
Theorem C12_cells_are_independent {T} (P : filter_ops T) c cs cs' :
  Forall2 (fun x x' => match x, x' with
    | BClear, BClear => True | BRefresh, BRefresh => True
    | BRemember cm ce hit miss rmin rmax, BRemember cm' ce' hit' miss' rmin' rmax' =>
        seen cm ce hit miss rmin rmax c = seen cm' ce' hit' miss' rmin' rmax' c
    | _, _ => False end) cs cs' -> cell_run P c cs = cell_run P c cs'.
Proof.
  unfold cell_run. generalize (f_init P, 0). intros s H. revert s. induction H as [|x x' cs cs' Hx H IH]; intros s; simpl; [reflexivity|].
  assert (E : cell_step P c s x = cell_step P c s x').
  { destruct x, x'; try contradiction; try reflexivity. simpl. rewrite Hx. reflexivity. }
  rewrite E. apply IH.
Qed.
