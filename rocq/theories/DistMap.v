(** Model of /repo/planner_cspace/src/distance_map.cpp (the distance-to-goal map).
    Costs are parametric ([cost_ops]: float, reals or integers, see CostAlg).  The block grid map [g_] is a function from cells to
    costs (its storage is covered by GridMap).  The heap order and the OpenMP schedule are an oracle. *)
From Coq Require Import QArith.
From Verif Require Import Common CostAlg AStar MotionCache.
Local Open Scope Z_scope.

Definition cell := (Z * Z)%type.
Definition cell_dec (a b : cell) : {a = b} + {a <> b}.
Proof. decide equality; apply Z.eq_dec. Defined.
Definition cadd (a b : cell) : cell := (fst a + fst b, snd a + snd b).

Section DistMap.
  Context {F : Type} (K : cost_ops F).

  (** distance_map.h:80-86 SearchDiffs ([grid_to_len] is only used in the weighted cost, see [e_extra]). *)
  Record diff := Diff { df_d : cell; df_pos : list cell; df_euclid : F }.

  (** distance_map.cpp:226-251: the cells passed by a straight move [d]: positions i*d/dist, i < dist = int(|d|), rounded
      (CyclicVecInt(CyclicVecFloat) uses lround), consecutive duplicates dropped. *)
  Definition line_point (d : cell) (dist i : Z) : cell :=
    (lround (inject_Z (i * fst d) / inject_Z dist)%Q, lround (inject_Z (i * snd d) / inject_Z dist)%Q).
  Definition drop_repeats (l : list cell) : list cell :=
    fold_left (fun acc c => match rev acc with b :: _ => if cell_dec b c then acc else acc ++ [c] | [] => acc ++ [c] end) l [].
  Definition line_cells (d : cell) : list cell :=
    let dist := Z.sqrt (fst d * fst d + snd d * snd d) in
    drop_repeats (map (line_point d dist) (range_excl 0 dist)).
  (** 221-258: all moves of length at most 4; [euclid] is euclidCostRough as a function of the squared length. *)
  Definition moves : list cell :=
    filter (fun d => negb ((fst d =? 0) && (snd d =? 0)) && (fst d * fst d + snd d * snd d <=? 16))
      (list_prod (range_incl (-4) 4) (range_incl (-4) 4)).
  Definition search_diffs (euclid : Z -> F) : list diff :=
    map (fun d => Diff d (line_cells d) (euclid (fst d * fst d + snd d * snd d))) moves.

  (** What a fill reads: map size, moves, rough costmap, the weighted cost along a list of cells (148-150:
      weight_linear * grid_to_len * (sum * weight_costmap + sum_hist * weight_remembered)), overshoot (66), the start value
      -euclid_cost*0.5 (373) and the batch size. *)
  Record env := Env { e_w : Z; e_h : Z; e_diffs : list diff; e_cm : cell -> Z; e_extra : diff -> list cell -> F;
    e_over : F; e_g0 : F; e_ntask : nat }.
  Definition inmap (E : env) (c : cell) : bool := (0 <=? fst c) && (fst c <? e_w E) && (0 <=? snd c) && (snd c <? e_h E).

  Record oracle := Orc { o_pick : nat -> list (F * cell) -> nat; o_order : nat -> list (F * cell) -> list (F * cell) }.

  Definition upd {A} (f : cell -> A) (c : cell) (a : A) : cell -> A := fun x => if cell_dec x c then a else f x.

  (** 71-93: take up to [n] entries; stale ones are skipped, far ones are marked as edges. *)
  Fixpoint fetch (fuel : nat) (pick : list (F * cell) -> nat) (over start : F) (g : cell -> F) (n : nat)
      (centers : list (F * cell)) (edges : cell -> bool) (open : list (F * cell))
    : list (F * cell) * (cell -> bool) * list (F * cell) :=
    match fuel with
    | O => (centers, edges, open)
    | S fuel' =>
        match n with
        | O => (centers, edges, open)
        | S n' =>
            match take_at (pick open) open with
            | None => (centers, edges, open)
            | Some ((p, v), open') =>
                if fltb K (g v) p then fetch fuel' pick over start g n centers edges open'
                else if fltb K start (fsub K p over) then fetch fuel' pick over start g n centers (upd edges v true) open'
                else fetch fuel' pick over start g n' (centers ++ [(p, v)]) edges open'
            end
        end
    end.

  (** 128-140: read the cells in order until one above 99 is found. *)
  Fixpoint collides (E : env) (cs : list cell) : outcome bool :=
    match cs with
    | [] => Ok false
    | c :: cs' => if negb (inmap E c) then UB else if 99 <? e_cm E c then Ok true else collides E cs'
    end.

  Inductive relaxed := RSkip | REdge | RUpd (next : cell) (cost : F).
  (** 104-164: one move from a center. *)
  Definition relax (E : env) (g : cell -> F) (c : F * cell) (ds : diff) : outcome relaxed :=
    let p := snd c in
    let next := cadd p (df_d ds) in
    if negb (inmap E next) then Ok RSkip
    else if fleb K (g next) (fadd K (g p) (df_euclid ds)) then Ok RSkip
    else
      let cs := map (cadd p) (df_pos ds) in
      do col <- collides E cs;
      if col then Ok REdge
      else
        let w := fadd K (df_euclid ds) (e_extra E ds cs) in
        let w := if fltb K w (fzero K) then fzero K else w in
        let cn := fadd K (fst c) w in
        Ok (if fltb K cn (g next) then RUpd next cn else RSkip).

  (** 98-166: all centers, in the order in which their results are later applied. *)
  Definition relax_all (E : env) (g : cell -> F) (centers : list (F * cell)) : outcome (list (cell * F) * list cell) :=
    foldM (fun acc c =>
      foldM (fun acc ds => do r <- relax E g c ds;
        Ok (match r with RSkip => acc | REdge => (fst acc, snd acc ++ [snd c]) | RUpd n v => (fst acc ++ [(n, v)], snd acc) end))
        (e_diffs E) acc) centers ([], []).

  (** 168-181: the critical sections. *)
  Definition apply1 (s : (cell -> F) * list (F * cell)) (u : cell * F) : (cell -> F) * list (F * cell) :=
    if fltb K (snd u) (fst s (fst u)) then (upd (fst s) (fst u) (snd u), (snd u, fst u) :: snd s) else s.

  Inductive fill_end := FDone (g : cell -> F) (edges : cell -> bool) | FFuel | FUB.
  (** 68-184: the main loop. *)
  Fixpoint fill_loop (fuel : nat) (O : oracle) (E : env) (s : cell) (k : nat) (g : cell -> F) (edges : cell -> bool)
      (open : list (F * cell)) : fill_end :=
    match fuel with
    | O => FFuel
    | S fuel' =>
        let '(centers, edges1, open1) := fetch (length open) (o_pick O k) (e_over E) (g s) g (e_ntask E) [] edges open in
        match centers with
        | [] => FDone g edges1
        | _ =>
            match relax_all E g (o_order O k centers) with
            | UB => FUB
            | Ok (us, es) =>
                let '(g2, open2) := fold_left apply1 us (g, open1) in
                fill_loop fuel' O E s (S k) g2 (fold_left (fun b c => upd b c true) es edges1) open2
            end
        end
    end.
  Definition fillCostmap (fuel : nat) (O : oracle) (E : env) (s : cell) (g : cell -> F) (open : list (F * cell)) : fill_end :=
    fill_loop fuel O E s 0 g (fun _ => false) open.

  (** The object's state: g_, goal_, edges_buf_ (distance_map.h:122-137). *)
  Record dmap := Dmap { dm_g : cell -> F; dm_goal : cell; dm_edges : cell -> bool }.
  Inductive res := Done (d : dmap) | OutOfFuel | Undefined.

  (** init, 205-262: scores cleared to 0, no goal. *)
  Definition init : dmap := Dmap (fun _ => fzero K) (-1, -1) (fun _ => false).

  (** create, 355-376. *)
  Definition create (fuel : nat) (O : oracle) (E : env) (d : dmap) (s e : cell) : res :=
    if negb (inmap E s && inmap E e) then Done (Dmap (dm_g d) e (dm_edges d))
    else
      match fillCostmap fuel O E s (upd (fun _ => fmax K) e (e_g0 E)) [(e_g0 E, e)] with
      | FDone g edges => Done (Dmap (upd g e (fzero K)) e edges)
      | FFuel => OutOfFuel
      | FUB => Undefined
      end.

  (** 276-287: cheapest cell of a rectangle, row by row; the first of equals. *)
  Definition rect_cells (lo hi : cell) : list cell :=
    flat_map (fun y => map (fun x => (x, y)) (range_incl (fst lo) (fst hi))) (range_incl (snd lo) (snd hi)).
  Definition rect_min (E : env) (g : cell -> F) (lo hi : cell) : outcome (cell * F) :=
    foldM (fun acc c => if negb (inmap E c) then UB else Ok (if fltb K (g c) (snd acc) then (c, g c) else acc))
      (rect_cells lo hi) ((0, 0), fmax K).

  (** 311-345: erase all cells not below [cmin] that hang together; cells below it are queued again. *)
  Definition neighbours : list cell := [(-1, 0); (0, -1); (0, 1); (1, 0)].
  Definition erase_step (E : env) (cmin : F) (p : cell) (g : cell -> F) (edges : cell -> bool) (open : list (F * cell)) (er : list (F * cell)) :=
    fold_left (fun '(open, er, edges) d =>
      let n := cadd p d in
      if negb (inmap E n) then (open, er, edges)
      else if feqb K (g n) (fmax K) then (open, er, edges)
      else if fltb K (g n) cmin then ((g n, n) :: open, er, edges)
      else (open, (fzero K, n) :: er, upd edges n false)) neighbours (open, er, edges).
  Fixpoint erase_loop (fuel : nat) (pick : nat -> list (F * cell) -> nat) (E : env) (cmin : F) (k : nat) (g : cell -> F)
      (edges : cell -> bool) (open er : list (F * cell)) : option ((cell -> F) * (cell -> bool) * list (F * cell)) :=
    match fuel with
    | O => None
    | S fuel' =>
        match take_at (pick k er) er with
        | None => Some (g, edges, open)
        | Some ((_, p), er') =>
            if feqb K (g p) (fmax K) then erase_loop fuel' pick E cmin (S k) g edges open er'
            else
              let g' := upd g p (fmax K) in
              let '(open', er'', edges') := erase_step E cmin p g' edges open er' in
              erase_loop fuel' pick E cmin (S k) g' edges' open' er''
        end
    end.

  Definition all_cells (E : env) : list cell := rect_cells (0, 0) (e_w E - 1, e_h E - 1).

  (** update, 264-353. *)
  Definition update (fuel : nat) (O : oracle) (E : env) (d : dmap) (s e : cell) (lo hi : cell) : res :=
    if negb (if cell_dec e (dm_goal d) then true else false) then create fuel O E d s e
    else
      match rect_min E (dm_g d) lo hi with
      | UB => Undefined
      | Ok (pmin, cmin) =>
          if feqb K cmin (fzero K) then create fuel O E d s e
          else if negb (inmap E s && inmap E e) then Done d
          else
            let er := (if feqb K cmin (fmax K) then [] else [(fzero K, pmin)]) ++ (if fltb K cmin (dm_g d s) then [(fzero K, s)] else []) in
            match erase_loop fuel (o_pick O) E cmin 0 (dm_g d) (dm_edges d) [] er with
            | None => OutOfFuel
            | Some (g, edges, open) =>
                let open := map (fun c => (g c, c)) (filter edges (all_cells E)) ++ open in
                let open := match open with [] => [(e_g0 E, e)] | _ => open end in
                match fillCostmap fuel O E s g open with
                | FDone g' edges' => Done (Dmap g' e edges')
                | FFuel => OutOfFuel
                | FUB => Undefined
                end
            end
      end.
End DistMap.
Arguments Diff {F}. Arguments Env {F}. Arguments Dmap {F}. Arguments Done {F}. Arguments OutOfFuel {F}. Arguments Undefined {F}.
