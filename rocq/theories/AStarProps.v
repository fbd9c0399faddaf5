(** C06-C08: the properties of GridAstar::search.  [oracle]s stand for the
    heap's tie-breaking, the OpenMP schedule, the merge order of the threads,
    racing writes to the best-so-far cell and the progress callback. *)
From Coq Require Import ZifyBool ZifyNat Permutation.
From Verif Require Import Common CyclicVecSpec GridMapSpec CostAlg CostZ CostF32
  AStar AStarSpec AStarProofs AStarSearch AStarTerm AStarComplete AStarOpt.
Local Open Scope Z_scope.

(** ** C06: only real paths *)

(** Whatever the schedule, the batch size, the queue limit and the early-leave
    threshold: a successful search returns a path that starts at one of the
    given starts, only uses moves the model offers with an acceptable cost,
    repeats no cell and stops at the goal or at a cell that passed the
    early-leave test. *)
Theorem C06_success_returns_a_real_path {F} (K : cost_ops F) (L : cost_laws K) nc size M
    fuel O ntask limit cl sts en rb ab path :
  well_typed nc size M sts en -> fair_sched O ->
  Forall (fun s => fleb K (fzero K) (snd s) = true) sts ->
  search K nc size M fuel O ntask limit cl sts en rb = SDone true ab path ->
  exists ss e, wrapped_starts nc size sts ss /\ canon unsigned_range nc en size e /\
    (exists s c, In (s, c) ss /\ hd_error path = Some s) /\
    linked (move K nc size M ss e) path /\ NoDup path /\
    stop_ok K M cl ss e (last path e).
Proof.
  intros HT HO H0 E.
  destruct (search_sound K nc size M L fuel O ntask limit cl sts en rb true ab path HT HO H0 E (or_introl eq_refl))
    as (ss & e & H1 & H2 & (H3 & H4 & H5) & H6).
  exists ss, e. auto 8.
Qed.

(** With a non-positive early-leave threshold (the make_plan service passes 0)
    and non-negative heuristics at the starts, the path ends at the goal. *)
Theorem C06_path_ends_at_goal {F} (K : cost_ops F) (L : cost_laws K) (V : leave_laws K) nc size M
    fuel O ntask limit cl sts en rb ab path :
  well_typed nc size M sts en -> fair_sched O ->
  Forall (fun s => fleb K (fzero K) (snd s) = true) sts ->
  fleb K cl (fzero K) = true ->
  (forall s s' e, In s sts -> canon unsigned_range nc (fst s) size s' -> canon unsigned_range nc en size e ->
     fltb K (m_costEstim M s' e) (fzero K) = false) ->
  search K nc size M fuel O ntask limit cl sts en rb = SDone true ab path ->
  exists ss e, wrapped_starts nc size sts ss /\ canon unsigned_range nc en size e /\
    (exists s c, route K nc size M ss e s c e path) /\ NoDup path.
Proof.
  intros HT HO H0 Hcl Hh E.
  destruct (C06_success_returns_a_real_path K L nc size M fuel O ntask limit cl sts en rb ab path HT HO H0 E)
    as (ss & e & H1 & H2 & (s & c & H3 & H4) & H5 & H6 & H7).
  exists ss, e. split; [exact H1|]. split; [exact H2|]. split; [|exact H6]. exists s, c.
  split; [exact H3|]. split; [exact H4|]. split; [|exact H5].
  assert (Hs : forall x cx, In (x, cx) ss -> fltb K (m_costEstim M x e) (fzero K) = false).
  { intros x cx Hx. clear -H1 Hx Hh H2. induction H1 as [|a b sts ss [A1 A2] HW IH]; [destruct Hx|].
    destruct Hx as [->|Hx]; [apply (Hh a _ _ (or_introl eq_refl) A1 H2)|].
    apply IH; [|exact Hx]. intros s0 s' e0 Hin. apply Hh. right. exact Hin. }
  assert (Hlast : last path s = last path e /\ fltb K (m_costEstim M (last path e) e) (fzero K) = false).
  { destruct path as [|a path]; [discriminate|]. injection H4 as ->.
    clear -H3 H5 Hs. split.
    - generalize s at 2 as d. intros d.
      assert (G : forall l (x y z : vec), last (x :: l) y = last (x :: l) z).
      { induction l as [|w l IH]; intros x y z; [reflexivity|]. simpl in *. apply (IH w). }
      apply G.
    - assert (G : forall l x, fltb K (m_costEstim M x e) (fzero K) = false ->
        linked (move K nc size M ss e) (x :: l) -> fltb K (m_costEstim M (last (x :: l) e) e) (fzero K) = false).
      { induction l as [|w l IH]; intros x Hx HL; [exact Hx|]. destruct HL as [(_ & _ & [A _] & _) HL].
        exact (IH w A HL). }
      apply G; [eapply Hs; eauto|exact H5]. }
  destruct Hlast as [-> Hn].
  assert (Hcl' : forall z, fltb K z (fzero K) = false -> fltb K z cl = true -> False).
  { intros z Hz Hc. rewrite (lw_lt_le_trans _ L _ _ _ Hc Hcl) in Hz. discriminate. }
  destruct H7 as [H7|[(c0 & H7)|(c0 & ce & A1 & A2 & H7)]]; [exact H7|exfalso|exfalso].
  - eapply Hcl'; [|exact H7]. apply (lv_sub_l _ V). exact Hn.
  - eapply Hcl'; [|exact H7]. apply (lv_sub_r _ V). eapply (lv_trunc _ V); eauto.
Qed.

(** A failed or aborted search that returns the best partial path (planner's
    fallback) also returns a real, cycle-free path from a start. *)
Theorem C06_partial_result_is_a_real_path {F} (K : cost_ops F) (L : cost_laws K) nc size M
    fuel O ntask limit cl sts en ab path :
  well_typed nc size M sts en -> fair_sched O ->
  Forall (fun s => fleb K (fzero K) (snd s) = true) sts ->
  search K nc size M fuel O ntask limit cl sts en true = SDone false ab path -> path <> [] ->
  exists ss e, wrapped_starts nc size sts ss /\ canon unsigned_range nc en size e /\
    (exists s c, In (s, c) ss /\ hd_error path = Some s) /\
    linked (move K nc size M ss e) path /\ NoDup path.
Proof.
  intros HT HO H0 E Hp.
  destruct (search_sound K nc size M L fuel O ntask limit cl sts en true false ab path HT HO H0 E (or_intror Hp))
    as (ss & e & H1 & H2 & (H3 & H4 & H5) & H6).
  exists ss, e. auto 8.
Qed.

(** The search performs no out-of-range access or undefined conversion, provided the
    starts are inside the map and their heuristic fits an int. *)
Theorem C06_no_undefined_behaviour {F} (K : cost_ops F) (L : cost_laws K) nc size M
    fuel O ntask limit cl sts en rb :
  well_typed nc size M sts en -> fair_sched O ->
  Forall (fun s => fleb K (fzero K) (snd s) = true) sts ->
  (forall s s' e, In s sts -> canon unsigned_range nc (fst s) size s' -> canon unsigned_range nc en size e ->
     valid size s' /\ exists ce, ftrunc K (m_costEstim M s' e) = Ok ce) ->
  search K nc size M fuel O ntask limit cl sts en rb <> SUB.
Proof. apply search_no_ub. exact L. Qed.

(** The same for the code's own arithmetic, IEEE binary32. *)
Theorem C06_float32_success_returns_a_real_path nc size M fuel O ntask limit cl sts en rb ab path :
  well_typed nc size M sts en -> fair_sched O ->
  Forall (fun s => fleb KF32 (fzero KF32) (snd s) = true) sts ->
  search KF32 nc size M fuel O ntask limit cl sts en rb = SDone true ab path ->
  exists ss e, wrapped_starts nc size sts ss /\ canon unsigned_range nc en size e /\
    (exists s c, In (s, c) ss /\ hd_error path = Some s) /\
    linked (move KF32 nc size M ss e) path /\ NoDup path /\
    stop_ok KF32 M cl ss e (last path e).
Proof. apply C06_success_returns_a_real_path. exact KF32_laws. Qed.

Theorem C06_float32_path_ends_at_goal nc size M fuel O ntask limit cl sts en rb ab path :
  well_typed nc size M sts en -> fair_sched O ->
  Forall (fun s => fleb KF32 (fzero KF32) (snd s) = true) sts ->
  fleb KF32 cl (fzero KF32) = true ->
  (forall s s' e, In s sts -> canon unsigned_range nc (fst s) size s' -> canon unsigned_range nc en size e ->
     fltb KF32 (m_costEstim M s' e) (fzero KF32) = false) ->
  search KF32 nc size M fuel O ntask limit cl sts en rb = SDone true ab path ->
  exists ss e, wrapped_starts nc size sts ss /\ canon unsigned_range nc en size e /\
    (exists s c, route KF32 nc size M ss e s c e path) /\ NoDup path.
Proof. apply C06_path_ends_at_goal; [exact KF32_laws|exact KF32_leave]. Qed.

(** The search converts a start's heuristic to int; a start whose heuristic is
    the "unreachable" sentinel makes that conversion undefined. *)
Theorem C06_unreachable_start_heuristic_refuted :
  exists M sts en, well_typed 1 [4] M sts en /\
    Forall (fun s => fleb KF32 (fzero KF32) (snd s) = true /\ valid [4] (fst s)) sts /\
    forall fuel O ntask limit cl rb, search KF32 1 [4] M fuel O ntask limit cl sts en rb = SUB.
Proof.
  exists (mkModel (fun _ _ _ _ => fzero KF32) (fun _ _ => fmax KF32) (fun _ _ _ => [])), [([0], fzero KF32)], [1].
  split; [|split].
  - split; [simpl; lia|]. split; [repeat constructor; lia|]. split; [reflexivity|].
    split; [repeat constructor|]. intros p ss e d [].
  - repeat constructor; simpl; lia.
  - intros. vm_compute. reflexivity.
Qed.

(** ** C07: optimality *)

(** Exact arithmetic, one task per batch, no queue limit, no early leave: with a
    consistent heuristic, and when no start can be reached more cheaply from
    another start than its own initial cost, the returned path is the cheapest
    route from any start to the goal. *)
Theorem C07_optimal_partial {F} (K : cost_ops F) (L : cost_laws K) (X : exact_laws K) nc size M sts en
    fuel O cl rb ab path :
  well_typed nc size M sts en -> fair_sched O -> min_pick K O -> fleb K cl (fzero K) = true ->
  Forall (fun s => fleb K (fzero K) (snd s) = true /\ finite K (snd s)) sts ->
  search K nc size M fuel O 1 0 cl sts en rb = SDone true ab path ->
  forall ss e, wrapped_starts nc size sts ss -> canon unsigned_range nc en size e ->
  (forall p n, valid size p -> move K nc size M ss e p n ->
     fleb K (m_costEstim M p e) (fadd K (m_cost M p n ss e) (m_costEstim M n e)) = true) ->
  (forall s c, In (s, c) ss -> fltb K (m_costEstim M s e) (fzero K) = false) ->
  (forall s c, In (s, c) ss -> forall s' c' l, route K nc size M ss e s' c' s l ->
     fleb K c (route_cost K M ss e c' l) = true) ->
  exists s c, route K nc size M ss e s c e path /\
    forall s' c' l, route K nc size M ss e s' c' e l ->
      fleb K (route_cost K M ss e c path) (route_cost K M ss e c' l) = true.
Proof. intros. eapply search_optimal; eauto. Qed.

(** The hypothesis about starts is free when there is only one start. *)
Theorem C07_optimal_single_start_partial {F} (K : cost_ops F) (L : cost_laws K) (X : exact_laws K) nc size M st en
    fuel O cl rb ab path :
  well_typed nc size M [st] en -> fair_sched O -> min_pick K O -> fleb K cl (fzero K) = true ->
  fleb K (fzero K) (snd st) = true -> finite K (snd st) ->
  search K nc size M fuel O 1 0 cl [st] en rb = SDone true ab path ->
  forall s0 e, canon unsigned_range nc (fst st) size s0 -> canon unsigned_range nc en size e ->
  let ss := [(s0, snd st)] in
  (forall p n, valid size p -> move K nc size M ss e p n ->
     fleb K (m_costEstim M p e) (fadd K (m_cost M p n ss e) (m_costEstim M n e)) = true) ->
  fltb K (m_costEstim M s0 e) (fzero K) = false ->
  route K nc size M ss e s0 (snd st) e path /\
  forall l, route K nc size M ss e s0 (snd st) e l ->
      fleb K (route_cost K M ss e (snd st) path) (route_cost K M ss e (snd st) l) = true.
Proof.
  intros HT HO HM Hcl H0 Hf E s0 e Hs He ss Hcons Hh.
  assert (HW : wrapped_starts nc size [st] ss) by (constructor; [split; [exact Hs|reflexivity]|constructor]).
  destruct (search_optimal K L X nc size M [st] en fuel O cl rb ab path HT HO HM Hcl) with (ss := ss) (e := e)
    as (s & c & H1 & H2); auto.
  - intros s c [H|[]]. injection H as <- <-. exact Hh.
  - intros s c [H|[]] s' c' l (Hin & Hd & Hl & HL). injection H as <- <-.
    destruct Hin as [H|[]]. injection H as <- <-.
    destruct l as [|a l]; [discriminate|]. injection Hd as ->.
    assert (G : forall l a b, fleb K (snd st) b = true -> linked (move K nc size M ss e) (a :: l) ->
              fleb K (snd st) (route_cost K M ss e b (a :: l)) = true).
    { clear -L X. induction l as [|w l IH]; intros a b Hb HL; [exact Hb|]. destruct HL as [(_ & _ & _ & [A _]) HL].
      simpl. apply IH; [|exact HL]. eapply (lw_le_trans _ L); [exact Hb|].
      apply (add_nonneg K L X). apply (ex_total _ X). exact A. }
    apply G; [|exact HL]. apply (ex_total _ X). apply (lw_lt_irrefl _ L).
  - pose proof H1 as (Hin & _). destruct Hin as [H|[]]. injection H as <- <-. split; [exact H1|].
    intros l Hl. eapply H2; eauto.
Qed.

(** A heap that pops a minimal element, one thread. *)
Fixpoint argmin (l : list (@entry (option Z))) : nat :=
  match l with
  | [] => 0%nat
  | a :: l' => match l' with
               | [] => 0%nat
               | _ => if zlt (en_p (nth (argmin l') l' a)) (en_p a) then S (argmin l') else 0%nat
               end
  end.
Definition heap_oracle : @oracle (option Z) :=
  mkOracle (fun _ l => argmin l) (fun _ l => 0%nat) (fun _ cs => [cs]) (fun _ => false) (fun n => n).

Lemma argmin_lt l : l <> [] -> (argmin l < length l)%nat.
Proof.
  induction l as [|a l IH]; [congruence|]. intros _. simpl. destruct l as [|b l]; [lia|].
  specialize (IH ltac:(discriminate)). destruct (zlt _ _); simpl in *; lia.
Qed.
Lemma argmin_min l d : forall x, In x l -> zlt (en_p x) (en_p (nth (argmin l) l d)) = false.
Proof.
  assert (T : forall a b c, zlt a b = false -> zlt b c = false -> zlt a c = false)
    by (intros [a|] [b|] [c|]; simpl; try discriminate; try reflexivity; lia).
  assert (A : forall a b, zlt a b = true -> zlt b a = false)
    by (intros [a|] [b|]; simpl; try discriminate; try reflexivity; lia).
  assert (R : forall a, zlt a a = false) by (intros [a|]; simpl; try reflexivity; lia).
  induction l as [|a l IH]; intros x Hx; [destruct Hx|]. simpl. destruct l as [|b l].
  - destruct Hx as [->|[]]. apply R.
  - assert (Hd : nth (argmin (b :: l)) (b :: l) d = nth (argmin (b :: l)) (b :: l) a).
    { apply nth_indep. apply argmin_lt. discriminate. }
    destruct (zlt (en_p (nth (argmin (b :: l)) (b :: l) a)) (en_p a)) eqn:E.
    + change (zlt (en_p x) (en_p (nth (argmin (b :: l)) (b :: l) d)) = false). rewrite Hd in *. destruct Hx as [->|Hx]; [apply A; exact E|apply IH; exact Hx].
    + change (zlt (en_p x) (en_p a) = false). destruct Hx as [->|Hx]; [apply R|]. eapply T; [|exact E]. rewrite <- Hd. apply IH. exact Hx.
Qed.
Lemma remove_nth_nth {A} (d : A) : forall n l a r, remove_nth n l = Some (a, r) -> a = nth n l d.
Proof.
  induction n as [|n IH]; intros [|x l] a r E; simpl in E; try discriminate.
  - injection E as <- _. reflexivity.
  - destruct (remove_nth n l) as [[b r']|] eqn:E'; [|discriminate]. injection E as <- _. eapply IH; eauto.
Qed.
Lemma heap_oracle_min : min_pick KZ heap_oracle.
Proof.
  intros loop open en rest E en' Hin. unfold take_at in E. cbn [o_pick heap_oracle] in E.
  assert (open <> []) by (intros ->; destruct Hin).
  rewrite Nat.mod_small in E by (apply argmin_lt; assumption).
  rewrite (remove_nth_nth en _ _ _ _ E). apply argmin_min. exact Hin.
Qed.
Lemma heap_oracle_fair : fair_sched heap_oracle.
Proof. intros loop cs. simpl. rewrite app_nil_r. apply Permutation_refl. Qed.

(** Small graphs on a one-dimensional map of five cells: an edge list with costs
    and a heuristic table. *)
Definition edge_cost (es : list (Z * Z * Z)) (a b : vec) : option Z :=
  match find (fun t => (fst (fst t) =? nth 0 a 0) && (snd (fst t) =? nth 0 b 0)) es with
  | Some t => Some (snd t)
  | None => None
  end.
Definition graph_model (es : list (Z * Z * Z)) (h : vec -> vec -> option Z) : smodel :=
  mkModel (fun p q _ _ => edge_cost es p q) h
    (fun _ _ _ => map (fun d => [d]) [-4; -3; -2; -1; 1; 2; 3; 4]).
Lemma graph_typed es h sts en : Forall (fun s => length (fst s) = 1%nat) sts -> length en = 1%nat ->
  well_typed (F := option Z) 1 [5] (graph_model es h) sts en.
Proof.
  intros H1 H2. split; [simpl; lia|]. split; [repeat constructor; lia|]. split; [exact H2|]. split; [exact H1|].
  intros p ss e d Hd. simpl in Hd. repeat destruct Hd as [<-|Hd]; try (split; [reflexivity|repeat constructor; lia]).
  destruct Hd.
Qed.

Definition h0 : vec -> vec -> option Z := fun _ _ => Some 0.

(** The hypotheses of C06/C07/C08 hold on a concrete graph, and the search finds
    the detour 0 -> 1 -> 4 of cost 2 instead of the direct edge of cost 6. *)
Example search_example :
  search KZ 1 [5] (graph_model [(0,1,1); (0,4,6); (1,4,1); (4,0,1)] h0) 50 heap_oracle 1 0 (Some 0)
    [([0], Some 0)] [4] false = SDone true false [[0]; [1]; [4]].
Proof. vm_compute. reflexivity. Qed.
Example search_example_hyps :
  well_typed (F := option Z) 1 [5] (graph_model [(0,1,1); (0,4,6); (1,4,1); (4,0,1)] h0) [([0], Some 0)] [4] /\
  fair_sched heap_oracle /\ min_pick KZ heap_oracle /\
  (forall p n, move KZ 1 [5] (graph_model [(0,1,1); (0,4,6); (1,4,1); (4,0,1)] h0) [([0], Some 0)] [4] p n ->
     fleb KZ (h0 p [4]) (fadd KZ (edge_cost [(0,1,1); (0,4,6); (1,4,1); (4,0,1)] p n) (h0 n [4])) = true).
Proof.
  split; [apply graph_typed; repeat constructor|]. split; [apply heap_oracle_fair|]. split; [apply heap_oracle_min|].
  intros p n (_ & _ & _ & A & _). simpl in *.
  destruct (edge_cost [(0, 1, 1); (0, 4, 6); (1, 4, 1); (4, 0, 1)] p n) as [c|]; [|reflexivity]. simpl in *. lia.
Qed.

(** The same search over IEEE binary32 costs. *)
Definition f32_graph (es : list (Z * Z * Z)) : @smodel f32 :=
  mkModel (fun p q _ _ => match edge_cost es p q with Some c => f32_of_Z c | None => fmax KF32 end)
    (fun _ _ => fzero KF32) (fun _ _ _ => map (fun d => [d]) [-4; -3; -2; -1; 1; 2; 3; 4]).
Definition fifo_oracle {F} : @oracle F :=
  mkOracle (fun _ l => pred (length l)) (fun _ l => 0%nat) (fun _ cs => map (fun c => [c]) cs) (fun _ => false) (fun n => n).
Example search_example_f32 :
  search KF32 1 [5] (f32_graph [(0,1,1); (0,4,6); (1,4,1); (4,0,1)]) 50 fifo_oracle 2 0 (fzero KF32)
    [([0], fzero KF32)] [4] false = SDone true false [[0]; [4]].
Proof. vm_compute. reflexivity. Qed.
Example fifo_oracle_fair {F} : fair_sched (@fifo_oracle F).
Proof.
  intros loop cs. simpl. induction cs as [|c cs IH]; simpl; [constructor|]. constructor. exact IH.
Qed.

Lemma canon_nc1 (rng : Z -> Z -> Prop) x y : x = y -> canon rng 1 [x] [5] [y].
Proof.
  intros <-. split; [reflexivity|]. intros [|[|i]] e r z H1 H2 H3; simpl in *; congruence.
Qed.
Lemma graph_move es h ss e a b c hb : edge_cost es [a] [b] = Some c -> 0 <= c ->
  h [b] e = Some hb -> 0 <= hb -> 0 <= a < 5 -> 0 <= b < 5 -> a <> b ->
  move KZ 1 [5] (graph_model es h) ss e [a] [b].
Proof.
  intros E1 H1 E2 H2 Ha Hb N. split; [|split; [|split]].
  - exists [b - a]. split; [|apply canon_nc1; lia]. simpl.
    assert (b - a = -4 \/ b - a = -3 \/ b - a = -2 \/ b - a = -1 \/ b - a = 1 \/ b - a = 2 \/ b - a = 3 \/ b - a = 4) by lia.
    intuition congruence.
  - repeat constructor; lia.
  - unfold admissible_value. simpl. rewrite E2. simpl. split; [lia|reflexivity].
  - unfold admissible_value. simpl. rewrite E1. simpl. split; [lia|reflexivity].
Qed.

(** Batches of more than one task are not optimal: the goal may be popped in the
    same batch as a cell through which it is cheaper. *)
Definition g_batch := [(0,1,1); (0,4,6); (1,4,1)].
Theorem C07_batched_search_refuted :
  exists M st en path l, well_typed (F := option Z) 1 [5] M [st] en /\
    search KZ 1 [5] M 50 heap_oracle 2 0 (Some 0) [st] en false = SDone true false path /\
    route KZ 1 [5] M [st] en (fst st) (snd st) en l /\
    fltb KZ (route_cost KZ M [st] en (snd st) l) (route_cost KZ M [st] en (snd st) path) = true.
Proof.
  exists (graph_model g_batch h0), ([0], Some 0), [4], [[0]; [4]], [[0]; [1]; [4]].
  split; [apply graph_typed; repeat constructor|].
  split; [vm_compute; reflexivity|]. split; [|vm_compute; reflexivity].
  split; [left; reflexivity|]. split; [reflexivity|]. split; [reflexivity|].
  cbn [linked]. split; [|split; [|exact I]].
  - apply (graph_move g_batch h0 _ [4] 0 1 1 0); solve [reflexivity|lia].
  - apply (graph_move g_batch h0 _ [4] 1 4 1 0); solve [reflexivity|lia].
Qed.

(** With an admissible but inconsistent heuristic the search is not optimal: a
    cell that offers no improvement when it is expanded is closed for good, and a
    cheaper way to it found later is discarded.  Here cell 1 has heuristic 11 (its
    true distance to the goal 4 is 12), every other heuristic is 0; the search
    returns 0-3-4 of cost 14 although 0-1-2-3-4 costs 13. *)
Definition g_incons := [(0,1,1); (0,2,3); (0,3,4); (1,2,1); (2,3,1); (3,4,10)].
Definition h_incons : vec -> vec -> option Z := fun p _ => Some (if nth 0 p 0 =? 1 then 11 else 0).
Definition phi (p : vec) : Z := nth (Z.to_nat (nth 0 p 0)) [13; 12; 11; 10; 0] 0.
Lemma incons_bound ss e : forall l a c0, linked (move KZ 1 [5] (graph_model g_incons h_incons) ss e) (a :: l) ->
  last (a :: l) [4] = [4] ->
  exists z, route_cost KZ (graph_model g_incons h_incons) ss e (Some c0) (a :: l) = Some z /\ c0 + phi a <= z.
Proof.
  induction l as [|b l IH]; intros a c0 HL Hl.
  - simpl in Hl. subst a. exists c0. split; [reflexivity|]. change (phi [4]) with 0. lia.
  - destruct HL as [(_ & _ & _ & _ & Hc) HL]. cbn [m_cost graph_model] in Hc.
    destruct (edge_cost g_incons a b) as [c|] eqn:Ec; [|discriminate].
    change (last (b :: l) [4] = [4]) in Hl.
    destruct (IH b (c0 + c) HL Hl) as (z & Ez & Hz). exists z.
    split; [cbn [route_cost m_cost graph_model]; rewrite Ec; exact Ez|].
    assert (phi a <= c + phi b); [|lia].
    unfold edge_cost in Ec. destruct (find _ g_incons) as [[[x y] w]|] eqn:Ef; [|discriminate].
    injection Ec as <-. apply find_some in Ef. destruct Ef as [Hin Hxy]. cbn [fst snd] in *.
    apply andb_true_iff in Hxy. destruct Hxy as [Hx Hy]. apply Z.eqb_eq in Hx, Hy.
    unfold phi. rewrite <- Hx, <- Hy.
    unfold g_incons in Hin. cbn [In] in Hin.
    repeat destruct Hin as [Hin|Hin]; try (injection Hin as <- <- <-; vm_compute; discriminate); destruct Hin.
Qed.

Theorem C07_inconsistent_heuristic_refuted :
  exists M st en path l, well_typed (F := option Z) 1 [5] M [st] en /\
    (forall ss p l', route KZ 1 [5] M ss en p (Some 0) en l' ->
       fleb KZ (m_costEstim M p en) (route_cost KZ M ss en (Some 0) l') = true) /\
    search KZ 1 [5] M 50 heap_oracle 1 0 (Some 0) [st] en false = SDone true false path /\
    route KZ 1 [5] M [st] en (fst st) (snd st) en l /\
    fltb KZ (route_cost KZ M [st] en (snd st) l) (route_cost KZ M [st] en (snd st) path) = true.
Proof.
  exists (graph_model g_incons h_incons), ([0], Some 0), [4], [[0]; [3]; [4]], [[0]; [1]; [2]; [3]; [4]].
  split; [apply graph_typed; repeat constructor|].
  split.
  { intros ss p l' (_ & H1 & H2 & H3). destruct l' as [|a l']; [discriminate|]. injection H1 as ->.
    assert (Hl : last (p :: l') [4] = [4]).
    { rewrite <- H2 at 2. clear. generalize p at 1 2. revert p.
      induction l' as [|c l' IH]; intros p x; [reflexivity|].
      apply (IH p c). }
    destruct (incons_bound ss [4] l' p 0 H3 Hl) as (z & -> & Hz). cbn.
    unfold phi in Hz. destruct (nth 0 p 0 =? 1) eqn:E1.
    - assert (E : nth 0 p 0 = 1) by lia. rewrite E in Hz. change (0 + 12 <= z) in Hz. lia.
    - assert (0 <= nth (Z.to_nat (nth 0 p 0)) [13; 12; 11; 10; 0] 0).
      { destruct (Z.to_nat (nth 0 p 0)) as [|[|[|[|[|[|n]]]]]]; cbn; lia. }
      lia. }
  split; [vm_compute; reflexivity|]. split; [|vm_compute; reflexivity].
  split; [left; reflexivity|]. split; [reflexivity|]. split; [reflexivity|].
  cbn [linked]. split; [|split; [|split; [|split; [|exact I]]]].
  - apply (graph_move g_incons h_incons _ [4] 0 1 1 11); solve [reflexivity|lia].
  - apply (graph_move g_incons h_incons _ [4] 1 2 1 0); solve [reflexivity|lia].
  - apply (graph_move g_incons h_incons _ [4] 2 3 1 0); solve [reflexivity|lia].
  - apply (graph_move g_incons h_incons _ [4] 3 4 10 0); solve [reflexivity|lia].
Qed.

(** Several starts: a start that can be reached more cheaply from another start
    still ends the path, so its own larger initial cost is paid.  Starts 0 (cost
    0) and 1 (cost 100), moves 0-1 and 1-4 of cost 1: the result is 1-4 of total
    cost 101 although 0-1-4 costs 2. *)
Definition g_starts := [(0,1,1); (1,4,1)].
Theorem C07_unbalanced_starts_refuted :
  exists M ss en path l, well_typed (F := option Z) 1 [5] M ss en /\
    (forall p n, move KZ 1 [5] M ss en p n ->
      fleb KZ (m_costEstim M p en) (fadd KZ (m_cost M p n ss en) (m_costEstim M n en)) = true) /\
    search KZ 1 [5] M 50 heap_oracle 1 0 (Some 0) ss en false = SDone true false path /\
    route KZ 1 [5] M ss en [0] (Some 0) en l /\
    forall s c, route KZ 1 [5] M ss en s c en path ->
      fltb KZ (route_cost KZ M ss en (Some 0) l) (route_cost KZ M ss en c path) = true.
Proof.
  exists (graph_model g_starts h0), [([0], Some 0); ([1], Some 100)], [4], [[1]; [4]], [[0]; [1]; [4]].
  split; [apply graph_typed; repeat constructor|].
  split.
  { intros p n (_ & _ & _ & A & _). cbn in *.
    destruct (edge_cost g_starts p n) as [c|]; [|reflexivity]. cbn in *. lia. }
  split; [vm_compute; reflexivity|]. split.
  - split; [left; reflexivity|]. split; [reflexivity|]. split; [reflexivity|].
    cbn [linked]. split; [|split; [|exact I]].
    + apply (graph_move g_starts h0 _ [4] 0 1 1 0); solve [reflexivity|lia].
    + apply (graph_move g_starts h0 _ [4] 1 4 1 0); solve [reflexivity|lia].
  - intros s c ([H|[H|[]]] & Hh & _); injection H as <- <-; [discriminate|]. vm_compute. reflexivity.
Qed.

(** ** C08: completeness and termination *)

(** Every schedule, every arithmetic: the search stops on a finite grid.  The
    fuel bound depends only on the map, the model and the starts. *)
Theorem C08_search_terminates {F} (K : cost_ops F) (L : cost_laws K) nc size M sts en :
  well_typed nc size M sts en ->
  Forall (fun s => fleb K (fzero K) (snd s) = true) sts ->
  (forall ss, wrapped_starts nc size sts ss -> NoDup (map fst ss)) ->
  exists fuel0, forall fuel O ntask limit cl rb, (fuel0 <= fuel)%nat -> fair_sched O ->
    search K nc size M fuel O ntask limit cl sts en rb <> SFuel.
Proof. apply search_terminates. exact L. Qed.

Theorem C08_float32_search_terminates nc size M sts en :
  well_typed nc size M sts en ->
  Forall (fun s => fleb KF32 (fzero KF32) (snd s) = true) sts ->
  (forall ss, wrapped_starts nc size sts ss -> NoDup (map fst ss)) ->
  exists fuel0, forall fuel O ntask limit cl rb, (fuel0 <= fuel)%nat -> fair_sched O ->
    search KF32 nc size M fuel O ntask limit cl sts en rb <> SFuel.
Proof. apply search_terminates. exact KF32_laws. Qed.

(** Without queue limit and abort, failure means that the goal is unreachable in
    the model's move graph. *)
Theorem C08_failure_means_unreachable {F} (K : cost_ops F) (L : cost_laws K) (X : exact_laws K) nc size M sts en
    fuel O ntask cl rb ab path :
  well_typed nc size M sts en -> fair_sched O -> (1 <= ntask)%nat -> (forall n, o_abort O n = false) ->
  Forall (fun s => fleb K (fzero K) (snd s) = true /\ finite K (snd s)) sts ->
  Forall (fun s => fst s <> en) sts ->
  search K nc size M fuel O ntask 0 cl sts en rb = SDone false ab path ->
  forall ss e, wrapped_starts nc size sts ss -> canon unsigned_range nc en size e ->
    forall s c l, ~ route K nc size M ss e s c e l.
Proof. intros. eapply search_complete; eauto. Qed.

Lemma decides_small {F} (K : cost_ops F) (L : cost_laws K) (V : leave_laws K) nc size M sts en (small : F -> Prop) :
  (forall a, small a -> fltb K a (fmax K) = true) -> small (fzero K) ->
  (forall ss e a p q, wrapped_starts nc size sts ss -> canon unsigned_range nc en size e ->
     small a -> valid size p -> move K nc size M ss e p q -> small (fadd K a (m_cost M p q ss e))) ->
  well_typed nc size M sts en ->
  Forall (fun s => fleb K (fzero K) (snd s) = true /\ small (snd s)) sts ->
  Forall (fun s => fst s <> en) sts ->
  (forall ss, wrapped_starts nc size sts ss -> NoDup (map fst ss)) ->
  (forall s s' e, In s sts -> canon unsigned_range nc (fst s) size s' -> canon unsigned_range nc en size e ->
     valid size s' /\ fltb K (m_costEstim M s' e) (fzero K) = false /\ exists ce, ftrunc K (m_costEstim M s' e) = Ok ce) ->
  exists fuel0, forall fuel O ntask rb, (fuel0 <= fuel)%nat -> fair_sched O -> (1 <= ntask)%nat ->
    (forall n, o_abort O n = false) ->
    exists ok path, search K nc size M fuel O ntask 0 (fzero K) sts en rb = SDone ok false path /\
      forall ss e, wrapped_starts nc size sts ss -> canon unsigned_range nc en size e ->
        (ok = true /\ exists s c, route K nc size M ss e s c e path) \/
        (ok = false /\ forall s c l, ~ route K nc size M ss e s c e l).
Proof.
  intros SL SZ SM HT H0 Hne HND HV.
  assert (H0' : Forall (fun s => fleb K (fzero K) (snd s) = true) sts) by (eapply Forall_impl; [|exact H0]; intros a [A _]; exact A).
  destruct (search_terminates K L nc size M sts en HT H0' HND) as [fuel0 HF]. exists fuel0.
  intros fuel O ntask rb Hf HO Hn Hab.
  specialize (HF fuel O ntask 0%nat (fzero K) rb Hf HO).
  assert (HU : search K nc size M fuel O ntask 0 (fzero K) sts en rb <> SUB).
  { apply search_no_ub; auto. intros s s' e A B C. destruct (HV s s' e A B C) as (V1 & _ & V2). auto. }
  destruct (search K nc size M fuel O ntask 0 (fzero K) sts en rb) as [ok ab path| |] eqn:E; [|congruence|congruence].
  assert (ab = false) as ->.
  { eapply search_not_aborted; eauto. }
  exists ok, path. split; [reflexivity|]. intros ss e HW HE. destruct ok.
  - left. split; [reflexivity|].
    destruct (C06_path_ends_at_goal K L V nc size M fuel O ntask 0 (fzero K) sts en rb false path HT HO H0')
      as (ss' & e' & A & B & C & _); auto.
    + apply (lw_zero _ L).
    + intros s s' e0 A B C. apply (HV s s' e0 A B C).
    + destruct HT as (T1 & T2 & T3 & T4 & _).
      assert (ss' = ss) as ->.
      { eapply wrapped_unique; eauto. intros i r _ Hr. apply (Forall_nth _ _ _ _ T2) in Hr. lia. }
      assert (e' = e) as ->; [|exact C].
      eapply canon_unique; eauto.
  - right. split; [reflexivity|]. eapply (search_complete_small K L nc size M sts en small); eauto.
Qed.

(** Together: from starts inside the map, for every schedule and batch size, the search
    either finds a real path to the goal or there is none. *)
Theorem C08_search_decides_reachability {F} (K : cost_ops F) (L : cost_laws K) (X : exact_laws K) (V : leave_laws K)
    nc size M sts en :
  well_typed nc size M sts en ->
  Forall (fun s => fleb K (fzero K) (snd s) = true /\ finite K (snd s)) sts ->
  Forall (fun s => fst s <> en) sts ->
  (forall ss, wrapped_starts nc size sts ss -> NoDup (map fst ss)) ->
  (forall s s' e, In s sts -> canon unsigned_range nc (fst s) size s' -> canon unsigned_range nc en size e ->
     valid size s' /\ fltb K (m_costEstim M s' e) (fzero K) = false /\ exists ce, ftrunc K (m_costEstim M s' e) = Ok ce) ->
  exists fuel0, forall fuel O ntask rb, (fuel0 <= fuel)%nat -> fair_sched O -> (1 <= ntask)%nat ->
    (forall n, o_abort O n = false) ->
    exists ok path, search K nc size M fuel O ntask 0 (fzero K) sts en rb = SDone ok false path /\
      forall ss e, wrapped_starts nc size sts ss -> canon unsigned_range nc en size e ->
        (ok = true /\ exists s c, route K nc size M ss e s c e path) \/
        (ok = false /\ forall s c l, ~ route K nc size M ss e s c e l).
Proof.
  intros HT H0 Hne HND HV. apply (decides_small K L V nc size M sts en (finite K)); auto.
  - apply (ex_zero_fin _ X).
  - intros ss e a p q _ _ Ha _ HM. apply (ex_add_fin _ X); [exact Ha|]. destruct HM as (_ & _ & _ & _ & HE).
    apply (ex_eqb_max _ X); [exact HE|]. apply (ex_antisym _ X). apply (ex_le_max _ X).
Qed.

(** Failure on a concrete graph: no edge enters the goal. *)
Example search_failure_example :
  search KZ 1 [5] (graph_model [(0,1,1); (0,2,6); (1,2,1); (4,0,1)] h0) 50 heap_oracle 2 0 (Some 0)
    [([0], Some 0)] [4] false = SDone false false [].
Proof. vm_compute. reflexivity. Qed.
Example search_decides_hyps :
  Forall (fun s : vec * option Z => fleb KZ (fzero KZ) (snd s) = true /\ finite KZ (snd s)) [([0], Some 0); ([2], Some 3)] /\
  Forall (fun s : vec * option Z => fst s <> [4]) [([0], Some 0); ([2], Some 3)] /\
  (forall ss, wrapped_starts (F := option Z) 1 [5] [([0], Some 0); ([2], Some 3)] ss -> NoDup (map fst ss)).
Proof.
  split; [repeat constructor|]. split; [repeat constructor; discriminate|].
  intros ss H.
  assert (HW : wrapped_starts (F := option Z) 1 [5] [([0], Some 0); ([2], Some 3)] [([0], Some 0); ([2], Some 3)]).
  { repeat (constructor; [split; [apply canon_nc1; reflexivity|reflexivity]|]). constructor. }
  assert (E : ss = [([0], Some 0); ([2], Some 3)]).
  { eapply wrapped_unique; [| |exact H|exact HW].
    - intros [|[|i]] r Hi Hr; simpl in Hr; [lia|discriminate|destruct i; discriminate].
    - repeat constructor. }
  subst ss. simpl. repeat constructor; simpl; intuition discriminate.
Qed.

Print Assumptions C06_success_returns_a_real_path.
Print Assumptions C06_path_ends_at_goal.
Print Assumptions C06_partial_result_is_a_real_path.
Print Assumptions C06_no_undefined_behaviour.
Print Assumptions C06_float32_success_returns_a_real_path.
Print Assumptions C06_float32_path_ends_at_goal.
Print Assumptions C06_unreachable_start_heuristic_refuted.
Print Assumptions C07_optimal_partial.
Print Assumptions C07_optimal_single_start_partial.
Print Assumptions C07_batched_search_refuted.
Print Assumptions C07_inconsistent_heuristic_refuted.
Print Assumptions C07_unbalanced_starts_refuted.
Print Assumptions C08_search_terminates.
Print Assumptions C08_float32_search_terminates.
Print Assumptions C08_failure_means_unreachable.
Print Assumptions C08_search_decides_reachability.
