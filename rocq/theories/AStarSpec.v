(** Specification of path search: the move graph of a search model, paths and
    their costs.  Independent of the search algorithm. *)
From Verif Require Import Common CostAlg CyclicVecSpec GridMapSpec AStar.
Local Open Scope Z_scope.

Section Spec.
  Context {F : Type} (K : cost_ops F) (nc : nat) (size : vec) (M : @smodel F).

  (** A cost or heuristic value the search accepts: not negative, not the
      "impossible" sentinel. *)
  Definition admissible_value (x : F) : Prop :=
    fltb K x (fzero K) = false /\ feqb K x (fmax K) = false.

  (** The model offers a move from [p] to [q] (starts [ss], goal [e]):
      [q] is [p] plus an offered displacement, wrapped in the cyclic
      dimensions, inside the map, and both the heuristic at [q] and the cost of
      the move are acceptable. *)
  Definition move (ss : list (vec * F)) (e p q : vec) : Prop :=
    (exists d, In d (m_searchGrids M p ss e) /\ canon unsigned_range nc (plus p d) size q) /\
    valid size q /\
    admissible_value (m_costEstim M q e) /\
    admissible_value (m_cost M p q ss e).

  (** Consecutive elements are related. *)
  Fixpoint linked {A} (R : A -> A -> Prop) (l : list A) : Prop :=
    match l with
    | a :: ((b :: _) as t) => R a b /\ linked R t
    | _ => True
    end.

  (** Sum of the move costs along a list of cells, added to [c0] from the left,
      i.e. in the order the robot travels. *)
  Fixpoint route_cost (ss : list (vec * F)) (e : vec) (c0 : F) (l : list vec) : F :=
    match l with
    | a :: ((b :: _) as t) => route_cost ss e (fadd K c0 (m_cost M a b ss e)) t
    | _ => c0
    end.

  (** [l] is a route of the model from start [(s, c)] to [t]. *)
  Definition route (ss : list (vec * F)) (e : vec) (s : vec) (c : F) (t : vec) (l : list vec) : Prop :=
    In (s, c) ss /\ hd_error l = Some s /\ last l s = t /\ linked (move ss e) l.

  (** [ss] are the given starts, wrapped into the map's cyclic range. *)
  Definition wrapped_starts (sts ss : list (vec * F)) : Prop :=
    Forall2 (fun a b => canon unsigned_range nc (fst a) size (fst b) /\ snd a = snd b) sts ss.

  (** Typing assumptions that C++ templates guarantee (same dimension) and that
      keep 32-bit coordinates from overflowing. *)
  Definition well_typed (sts : list (vec * F)) (en : vec) : Prop :=
    (nc <= length size)%nat /\
    Forall (fun s => 0 < s <= 2 ^ 30) size /\ length en = length size /\
    Forall (fun s => length (fst s) = length size) sts /\
    (forall p ss e d, In d (m_searchGrids M p ss e) ->
       length d = length size /\ Forall (fun x => Z.abs x <= 2 ^ 30) d).
End Spec.
