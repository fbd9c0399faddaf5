(** Model of planner_cspace/src/planner_3d.cpp: updateTemporaryEscapeGoal (2098-2329), the search for a temporary goal.
    The distance maps are functions: [static_dist] is cost_estim_cache_static_, [arrivable] says whether arrivable_map_ of a local cell is below
    the maximum (the distance maps themselves are modelled in DistMap).  [heading] is the truncated orientation of the gradient at a cell in
    angular steps, None if the gradient is zero; its floating point arithmetic (2270-2293) is not modelled, the cells it reads are.
    Every array access is guarded by the size of the map it goes to. *)
From Verif Require Import Common CyclicVec CostAlg DistMap Overlay SearchAvail.
Local Open Scope Z_scope.

Section TempEscape.
  Context {F : Type} (K : cost_ops F).
  Variables W H A : Z.                   (* map_info_.width, height, angle *)
  Variable range : Z.                    (* range_ *)
  Variables esc esc_min : Z.             (* esc_range_, esc_range_min_ *)
  Variable acceptable : Z.               (* relocation_acceptable_cost_ *)
  Variable cm : cell3 -> Z.              (* cm_ *)
  Variable cm_rough : cell -> Z.         (* cm_rough_ *)
  Variable static_dist : cell -> F.
  Variable arrivable : cell -> bool.
  Variable heading : cell -> option Z.
  Variable goal : cell3.                 (* g_orig *)

  Definition in_map (c : cell) : bool := (0 <=? fst c) && (fst c <? W) && (0 <=? snd c) && (snd c <? H).
  Definition in_map3 (c : cell3) : bool := in_map (fst c) && (0 <=? snd c) && (snd c <? A).
  (** BlockMemGridmap::validate with a tolerance, blockmem_gridmap.h:259-272, at orientation 0. *)
  Definition validate_at (c : cell) (tol : Z) : bool := (tol <=? fst c) && (fst c <? W - tol) && (tol <=? snd c) && (snd c <? H - tol).
  (** 2176-2180: the local buffers have local_width + 1 cells per side. *)
  Definition local_width : Z := esc * 2 + 1.
  Definition in_local (c : cell) : bool := (0 <=? fst c) && (fst c <? local_width + 1) && (0 <=? snd c) && (snd c <? local_width + 1).
  Definition local_of (s c : cell) : cell := (fst c - (fst s - esc), snd c - (snd s - esc)).

  (** 2194-2195: cm_local_esc_.copy_partially, both ends included (blockmem_gridmap.h:171-194). *)
  Definition copy_area (s : cell) : list cell :=
    list_prod (range_incl (fst s - esc) (fst s - esc + local_width)) (range_incl (snd s - esc) (snd s - esc + local_width)).
  Definition copy_local (s : cell) (local : cell -> Z) : outcome (cell -> Z) :=
    foldM (fun l p =>
      do _ <- guard (in_map p); do _ <- guard (in_local (local_of s p)); Ok (upd l (local_of s p) (cm_rough p))) (copy_area s) local.

  (** 2270-2285: the neighbours read for the gradient. *)
  Definition read_gradient (te : cell) : outcome unit :=
    foldM (fun _ d => if (fst d =? 0) && (snd d =? 0) then Ok tt else guard (in_map (cadd te d)))
      (list_prod [-1; 0; 1] [-1; 0; 1]) tt.

  Inductive scan := Best (cost : F) (te : cell3) | BackToGoal.
  (** 2203-2306: the body of the loops for one difference. *)
  Definition probe (s : cell) (st : scan) (d : cell) : outcome scan :=
    match st with
    | BackToGoal => Ok BackToGoal
    | Best best _ =>
        let sq := fst d * fst d + snd d * snd d in
        if esc * esc <? sq then Ok st
        else
          let te := cadd s d in
          if negb (in_map te) then Ok st
          else if negb (validate_at te range) then Ok st
          else
            do _ <- guard (in_local (local_of s te));
            if negb (arrivable (local_of s te)) then Ok st
            else
              do back <- (if (fst te =? fst (fst goal)) && (snd te =? snd (fst goal))
                          then do _ <- guard (in_map3 goal); Ok (cm goal <? 100) else Ok false);
              if back then Ok BackToGoal
              else if ((fst d =? 0) && (snd d =? 0)) || (sq <? esc_min * esc_min) then Ok st
              else
                do _ <- guard (in_map te);
                if acceptable <=? cm_rough te then Ok st
                else if fleb K best (static_dist te) then Ok st
                else
                  do _ <- read_gradient te;
                  match heading te with
                  | None => Ok st
                  | Some h =>
                      do t <- cycleUnsignedElement h A;
                      do _ <- guard (in_map3 (te, t));
                      if acceptable <=? cm (te, t) then Ok st
                      else if fltb K (static_dist te) best then Ok (Best (static_dist te) (te, t)) else Ok st
                  end
    end.
  (** 2203-2206: rows outermost. *)
  Definition circle : list cell := map (fun '(y, x) => (x, y)) (list_prod (range_incl (- esc) esc) (range_incl (- esc) esc)).

  Inductive found := NoEscape | OriginalGoal | EscapeTo (te : cell3) (better : bool).
  (** 2137-2329: crowd mode. *)
  Definition crowd_escape (s : cell) (junk : cell -> Z) : outcome found :=
    if negb (validate_at s esc) then Ok NoEscape
    else
      do _ <- copy_local s junk;
      do r <- foldM (probe s) circle (Best (fmax K) ((0, 0), 0));
      match r with
      | BackToGoal => Ok OriginalGoal
      | Best c te =>
          if feqb K c (fmax K) then Ok NoEscape
          else do _ <- guard (in_map s); Ok (EscapeTo te (fltb K c (static_dist s)))
      end.

  (** 2114-2134: without crowd mode the search starts at a default constructed Astar::Vec, which is (0, 0, 0) (cyclic_vec.h:158-162). *)
  Variable euclid : cell3 -> F.
  Variable esc_angle : Z.
  Definition plain_escape : outcome found :=
    do r <- searchAvailablePos K euclid W H A range acceptable cm ((0, 0), 0) esc esc_angle acceptable esc_min;
    Ok (if fst r then EscapeTo (snd r) false else NoEscape).
End TempEscape.
