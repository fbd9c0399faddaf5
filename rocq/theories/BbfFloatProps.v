(** C12 at the arithmetic of the code. *)
From Coq Require Import Reals Lra ZifyBool.
From Flocq Require Import Core.Core Core.Raux IEEE754.BinarySingleNaN.
From Verif Require Import Common CostF32 FloatLib DistMap SafetyLimiter Bbf BbfProps BbfFloat.
Local Open Scope Z_scope.

Definition real_odds (x : @bcall f32) : Prop :=
  match x with BRemember _ _ hit miss _ _ => nan hit = false /\ nan miss = false | _ => True end.

Lemma percent_initial : percent MIN_ODDS = 0.
Proof. vm_compute. reflexivity. Qed.
Lemma initial_odds_ok : odds_ok MIN_ODDS.
Proof. split; vm_compute; reflexivity. Qed.

Lemma cell_run_ok c cs : Forall (fun x : @bcall f32 => real_odds x) cs ->
  odds_ok (fst (cell_run bbf_float c cs)) /\ 0 <= snd (cell_run bbf_float c cs) <= 100.
Proof.
  induction cs as [|x cs IH] using rev_ind; intros H.
  - split; [apply initial_odds_ok|simpl; lia].
  - apply Forall_app in H as [H1 H2]. apply Forall_inv in H2. destruct (IH H1) as [A B].
    unfold cell_run in *. rewrite fold_left_app. cbn [fold_left].
    destruct x as [|cm ce hit miss rmin rmax|]; cbn [cell_step].
    + split; [apply initial_odds_ok|simpl; lia].
    + destruct H2 as [Nh Nm]. unfold seen. destruct (_ && _ && _); [|auto].
      destruct (cm c =? 100); [destruct (_ <=? _)|]; auto; split; auto; apply update_in_range; auto.
    + split; [exact A|]. apply percent_bounds. exact A.
Qed.

(** C12: after every history of observations (with odds that are not NaN), refreshes and clears, every cell of the map can be
    read and shows a value between 0 and 100. *)
Theorem C12_shown_cost_is_a_percentage w h (cs : list bcall) : 0 < w -> 0 < h -> Forall real_odds cs ->
  exists b, brun bbf_float w h cs = Ok b /\
    forall c, 0 <= fst c < w -> 0 <= snd c < h -> exists v, getCost b c = Ok v /\ 0 <= v <= 100.
Proof.
  intros Hw Hh Hcs. destruct (C12_shown_cost_is_the_cells_own_filter bbf_float w h cs percent_initial Hw Hh) as (b & E & G).
  exists b. split; [exact E|]. intros c Hx Hy. eexists. split; [apply G; assumption|]. apply cell_run_ok. exact Hcs.
Qed.

(** The filter value of a cell stays between its two limits; a hit never lowers it, a miss never raises it. *)
Theorem C12_filter_value_moves_as_observed (cs : list bcall) c o : Forall real_odds cs -> nan o = false ->
  let v := fst (cell_run bbf_float c cs) in
  odds_ok v /\ odds_ok (bayes_update v o) /\
  ((1 <= key o)%R -> (B2R v <= B2R (bayes_update v o))%R) /\
  ((0 <= key o <= 1)%R -> (B2R (bayes_update v o) <= B2R v)%R).
Proof.
  intros H N v. destruct (cell_run_ok c cs H) as [A _]. fold v in A. split; [exact A|]. split; [apply update_in_range; auto|].
  destruct (update_direction v o A N) as [U1 U2]. auto.
Qed.

(** A wall at (2,0) seen from (0,0): hit odds 3, miss odds 1/2, ranges 1 to 3; it is remembered after a refresh, and hidden again
    by a clear.  The cell under the robot is never counted as hit. *)
Definition ex_cm (c : cell) : Z := if cell_dec c (2, 0) then 100 else if cell_dec c (0, 0) then 100 else 0.
Definition ex_obs : bcall := BRemember ex_cm (0, 0) (f32_of_Z 3) (to32 (f64_of 1 (-1))) 1 3.
Definition shown (r : outcome (@bbf f32)) (c : cell) : Z := match r with Ok b => b_cost b c | UB => -1 end.
Example C12_example :
  Forall real_odds [ex_obs; ex_obs; BRefresh] /\
  shown (brun bbf_float 4 2 [ex_obs; ex_obs]) (2, 0) = 0 /\
  shown (brun bbf_float 4 2 [ex_obs; ex_obs; BRefresh]) (2, 0) = 50 /\
  shown (brun bbf_float 4 2 [ex_obs; ex_obs; ex_obs; ex_obs; ex_obs; BRefresh]) (2, 0) = 100 /\
  shown (brun bbf_float 4 2 [ex_obs; ex_obs; BRefresh]) (0, 0) = 0 /\
  shown (brun bbf_float 4 2 [ex_obs; ex_obs; BRefresh; BClear]) (2, 0) = 0.
Proof. split; [repeat constructor|]. vm_compute. auto 10. Qed.

Print Assumptions C12_shown_cost_is_the_cells_own_filter.
Print Assumptions C12_refresh_is_complete.
Print Assumptions C12_cells_are_independent.
Print Assumptions C12_shown_cost_is_a_percentage.
Print Assumptions C12_filter_value_moves_as_observed.
