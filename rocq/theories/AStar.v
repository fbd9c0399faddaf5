(** Model of planner_cspace/include/planner_cspace/grid_astar.h (GridAstar::search)
    with reservable_priority_queue.h and grid_astar_model.h.

    The score grid [g] is a total function from cells to costs (the block grid
    map is proved to behave that way in GridMapProps); accesses outside the map
    are UB here.  The OpenMP team, the heap and the clock are represented by an
    [oracle]: a collection of arbitrary functions that resolve every choice the
    runtime may make.  Theorems quantify over all oracles. *)
From Verif Require Import Common CyclicVec CostAlg.
Local Open Scope Z_scope.

Definition vec := list Z.
Definition vec_dec : forall a b : vec, {a = b} + {a <> b} := list_eq_dec Z.eq_dec.

Section AStar.
  Context {F : Type} (K : cost_ops F).

  (** grid_astar_model.h:60-65, the three virtual functions of the search model. *)
  Record smodel := mkModel {
    m_cost : vec -> vec -> list (vec * F) -> vec -> F;      (* cost(cur, next, start, goal) *)
    m_costEstim : vec -> vec -> F;                          (* costEstim(cur, goal) *)
    m_searchGrids : vec -> list (vec * F) -> vec -> list vec
  }.

  (** grid_astar.h:78-96 PriorityVec. *)
  Record entry := mkEntry { en_p : F; en_raw : F; en_v : vec }.

  (** grid_astar.h:97-131 GridmapUpdate. *)
  Record update := mkUpdate { up_from : vec; up_to : vec; up_estim : F; up_cost : F }.

  (** grid_astar.h:414-416 the search state; [parents_] is an association list. *)
  Record sstate := mkState {
    st_g : vec -> F;
    st_parents : list (vec * vec);
    st_open : list entry;
    st_better : vec
  }.

  (** Every run-time choice:
      - [o_pick]: which element [open_.top()] is, given the loop number and the queue
        (ties of the heap; any element when priorities are unordered),
      - [o_drop]: which element is last in the heap array when [pop_back] is called,
      - [o_sched]: how the loop iterations of [omp for] are distributed to threads and
        in which order the threads enter the critical section,
      - [o_abort]: whether the progress callback was invoked and asked to stop,
      - [o_better]: which candidate the racing writes to [better] leave behind. *)
  Record oracle := mkOracle {
    o_pick : nat -> list entry -> nat;
    o_drop : nat -> list entry -> nat;
    o_sched : nat -> list entry -> list (list entry);
    o_abort : nat -> bool;
    o_better : nat -> nat
  }.

  (** Association-list operations standing for std::unordered_map. *)
  Fixpoint lookup (k : vec) (l : list (vec * vec)) : option vec :=
    match l with
    | [] => None
    | (a, b) :: l' => if vec_dec a k then Some b else lookup k l'
    end.
  Fixpoint erase (k : vec) (l : list (vec * vec)) : list (vec * vec) :=
    match l with
    | [] => []
    | (a, b) :: l' => if vec_dec a k then erase k l' else (a, b) :: erase k l'
    end.
  Definition insert (k v : vec) (l : list (vec * vec)) : list (vec * vec) := (k, v) :: erase k l.

  (** Remove the element at a position of a list (position taken modulo the length). *)
  Fixpoint remove_nth {A} (n : nat) (l : list A) {struct l} : option (A * list A) :=
    match l with
    | [] => None
    | a :: l' =>
        match n with
        | O => Some (a, l')
        | S n' => match remove_nth n' l' with
                  | Some (b, r) => Some (b, a :: r)
                  | None => None
                  end
        end
    end.
  Definition take_at {A} (n : nat) (l : list A) : option (A * list A) :=
    remove_nth (n mod length l) l.

  Definition set_g (g : vec -> F) (p : vec) (c : F) : vec -> F :=
    fun q => if vec_dec q p then c else g q.

  Variables (nc : nat) (size : vec).     (* NONCYCLIC, g.size() *)
  Variable M : smodel.

  (** A position whose score cell exists: inside in every dimension
      (cyclic ones are normalised before use). *)
  Definition in_map (p : vec) : bool :=
    (length p =? length size)%nat && forallb (fun '(a, s) => (0 <=? a) && (a <? s)) (combine p size).

  (** grid_astar.h:206-226: registration of the start cells.  [better] is the
      start the code keeps; only the running minimum of the truncated heuristic
      decides it.  Returns [None] when the code returns false at line 212. *)
  Fixpoint init_starts (sts : list (vec * F)) (en e : vec)
      (ssn : list (vec * F)) (g : vec -> F) (open : list entry) (best : option F) (better : vec)
    : outcome (option (list (vec * F) * (vec -> F) * list entry * vec)) :=
    match sts with
    | [] => Ok (Some (ssn, g, open, better))
    | (v, c) :: sts' =>
        if vec_dec v en then Ok None
        else
          do s <- cycleUnsigned nc v size;
          if negb (in_map s) then UB
          else
            do ce <- ftrunc K (m_costEstim M s e);
            let upd := match best with None => true | Some b => fltb K ce b end in
            init_starts sts' en e (ssn ++ [(s, c)]) (set_g g s c)
              (mkEntry (fadd K ce c) c s :: open)
              (if upd then Some ce else best) (if upd then s else better)
    end.

  (** grid_astar.h:264: the early-leave test. *)
  Definition leaves (cost_leave : F) (c : entry) : bool :=
    fltb K (fsub K (en_p c) (en_raw c)) cost_leave.

  (** grid_astar.h:257-272: fetch up to [n] tasks. *)
  Fixpoint fetch (O : oracle) (loop : nat) (cost_leave : F) (n : nat) (e : vec)
      (centers open : list entry) : option vec * list entry * list entry :=
    match n with
    | O => (None, centers, open)
    | S n' =>
        match take_at (o_pick O loop open) open with
        | None => (None, centers, open)
        | Some (c, open') =>
            if (if vec_dec (en_v c) e then true else false) || leaves cost_leave c
            then (Some (en_v c), centers, open')
            else fetch O loop cost_leave n' e (centers ++ [c]) open'
        end
    end.

  (** grid_astar.h:318-345: one center's search list. *)
  Fixpoint expand_list (g : vec -> F) (ssn : list (vec * F)) (e p : vec) (c gp : F)
      (ds : list vec) (acc : list update) : outcome (list update) :=
    match ds with
    | [] => Ok acc
    | d :: ds' =>
        do next <- cycleUnsigned nc (vec_add p d) size;
        if isExceeded nc next size then expand_list g ssn e p c gp ds' acc
        else if fltb K (g next) gp then expand_list g ssn e p c gp ds' acc
        else
          let ce := m_costEstim M next e in
          if fltb K ce (fzero K) || feqb K ce (fmax K) then expand_list g ssn e p c gp ds' acc
          else
            let co := m_cost M p next ssn e in
            if fltb K co (fzero K) || feqb K co (fmax K) then expand_list g ssn e p c gp ds' acc
            else
              let cn := fadd K c co in
              if fltb K cn (g next)
              then expand_list g ssn e p c gp ds' (acc ++ [mkUpdate p next (fadd K cn ce) cn])
              else expand_list g ssn e p c gp ds' acc
    end.

  (** grid_astar.h:300-348: the centers one thread works on; returns its
      [updates] and [dont] vectors.  Line 309's racing update of
      [cost_estim_min]/[better] is represented by [o_better]. *)
  Fixpoint thread_work (g : vec -> F) (ssn : list (vec * F)) (e : vec) (cs : list entry)
    : outcome (list update * list vec) :=
    match cs with
    | [] => Ok ([], [])
    | c :: cs' =>
        let p := en_v c in
        let gp := g p in
        if fltb K gp (en_raw c) then thread_work g ssn e cs'
        else
          do us <- expand_list g ssn e p (en_raw c) gp (m_searchGrids M p ssn e) [];
          do r <- thread_work g ssn e cs';
          let '(us', dont') := r in
          Ok (us ++ us', (if us then [p] else []) ++ dont')
    end.

  (** grid_astar.h:352-362: one update inside the critical section.
      [limit = 0] means no limit. *)
  Definition apply_update (O : oracle) (loop : nat) (limit : nat) (s : sstate) (u : update) : sstate :=
    if fltb K (up_cost u) (st_g s (up_to u))
    then
      let open1 := mkEntry (up_estim u) (up_cost u) (up_to u) :: st_open s in
      let open2 :=
        if (0 <? limit)%nat && (limit <? length open1)%nat
        then match take_at (o_drop O loop open1) open1 with Some (_, r) => r | None => open1 end
        else open1 in
      mkState (set_g (st_g s) (up_to u) (up_cost u))
              (insert (up_to u) (up_from u) (st_parents s)) open2 (st_better s)
    else s.

  (** grid_astar.h:363-366. *)
  Definition apply_dont (s : sstate) (p : vec) : sstate :=
    mkState (set_g (st_g s) p (fneg1 K)) (st_parents s) (st_open s) (st_better s).

  (** grid_astar.h:350-370: one thread's critical section. *)
  Definition apply_thread (O : oracle) (loop limit : nat) (s : sstate) (w : list update * list vec) : sstate :=
    fold_left apply_dont (snd w) (fold_left (apply_update O loop limit) (fst w) s).

  (** All threads' parallel work (reads the unmodified [g]) ... *)
  Fixpoint mapM {A B} (f : A -> outcome B) (l : list A) : outcome (list B) :=
    match l with
    | [] => Ok []
    | a :: l' => do b <- f a; do r <- mapM f l'; Ok (b :: r)
    end.

  (** grid_astar.h:299-370: one parallel round. *)
  Definition round (O : oracle) (loop limit : nat) (ssn : list (vec * F)) (e : vec)
      (centers : list entry) (s : sstate) : outcome sstate :=
    do ws <- mapM (thread_work (st_g s) ssn e) (o_sched O loop centers);
    let cands := st_better s ::
      map en_v (filter (fun c => negb (fltb K (st_g s (en_v c)) (en_raw c))) centers) in
    let better := nth (o_better O loop mod length cands) cands (st_better s) in
    let s1 := mkState (st_g s) (st_parents s) (st_open s) better in
    Ok (fold_left (apply_thread O loop limit) ws s1).

  (** How the main loop ended: goal (or early-leave cell) found; queue empty or
      aborted; fuel exhausted. *)
  Inductive loop_end :=
  | LFound (e : vec) (s : sstate)
  | LFail (aborted : bool) (s : sstate)
  | LFuel
  | LUB.

  (** grid_astar.h:248-371: the main loop, with fuel. *)
  Fixpoint main_loop (fuel : nat) (O : oracle) (loop ntask limit : nat) (cost_leave : F)
      (ssn : list (vec * F)) (e : vec) (s : sstate) : loop_end :=
    match fuel with
    | O => LFuel
    | S fuel' =>
        let '(fnd, centers, open') := fetch O loop cost_leave ntask e [] (st_open s) in
        let s1 := mkState (st_g s) (st_parents s) open' (st_better s) in
        match fnd with
        | Some e' => LFound e' s1
        | None =>
            if o_abort O loop then LFail true s1
            else match centers with
                 | [] => LFail false s1
                 | _ => match round O loop limit ssn e centers s1 with
                        | Ok s2 => main_loop fuel' O (S loop) ntask limit cost_leave ssn e s2
                        | UB => LUB
                        end
                 end
        end
    end.

  (** grid_astar.h:385-412 [findPath]: follow parents from [n] until a start
      cell; each used parent is erased.  [fuel] bounds the number of steps. *)
  Fixpoint findPath_loop (fuel : nat) (ss : list (vec * F)) (n : vec) (parents : list (vec * vec))
      (path : list vec) : option (bool * list vec) :=
    match fuel with
    | O => None
    | S fuel' =>
        let path' := n :: path in
        if existsb (fun s => if vec_dec n (fst s) then true else false) ss
        then Some (true, path')
        else match lookup n parents with
             | None => Some (false, path')
             | Some q => findPath_loop fuel' ss q (erase n parents) path'
             end
    end.
  Definition findPath (ss : list (vec * F)) (e : vec) (parents : list (vec * vec)) :=
    findPath_loop (S (length parents)) ss e parents [].

  Inductive search_res :=
  | SDone (ok aborted : bool) (path : list vec)
  | SFuel
  | SUB.

  (** grid_astar.h:169-182 and 185-384 [search]; called with an empty path list,
      as every caller in the package does. *)
  Definition search (fuel : nat) (O : oracle) (ntask limit : nat) (cost_leave : F)
      (sts : list (vec * F)) (en : vec) (return_best : bool) : search_res :=
    match sts with
    | [] => SDone false false []
    | _ =>
      match cycleUnsigned nc en size with
      | UB => SUB
      | Ok e =>
        match init_starts sts en e [] (fun _ => fmax K) [] None [] with
        | UB => SUB
        | Ok None => SDone false false []
        | Ok (Some (ssn, g, open, better)) =>
            match main_loop fuel O 0 ntask limit cost_leave ssn e (mkState g [] open better) with
            | LUB => SUB
            | LFuel => SFuel
            | LFail ab s =>
                if return_best
                then match findPath ssn (st_better s) (st_parents s) with
                     | Some (_, path) => SDone false ab path
                     | None => SFuel
                     end
                else SDone false ab []
            | LFound e' s =>
                match findPath ssn e' (st_parents s) with
                | Some (b, path) => SDone b false path
                | None => SFuel
                end
            end
        end
      end
    end.
End AStar.
