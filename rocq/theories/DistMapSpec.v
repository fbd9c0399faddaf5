(** Specification of the distance map, independent of how it is filled. *)
From Verif Require Import Common CostAlg DistMap.
Local Open Scope Z_scope.

Section Spec.
  Context {F : Type} (K : cost_ops F) (E : @env F).

  Definition not_below (a b : F) : Prop := fltb K a b = false.

  (** Cost of one straight move from [u]: its length cost plus the weighted costs of the cells it passes, never negative. *)
  Definition weight (u : cell) (ds : diff) : F :=
    let w := fadd K (df_euclid ds) (e_extra E ds (map (cadd u) (df_pos ds))) in
    if fltb K w (fzero K) then fzero K else w.

  (** A straight move: it ends inside the map and every cell it passes (the cell it starts from included, the one it ends in
      excluded) is inside the map and not an obstacle. *)
  Definition link (u : cell) (ds : diff) (v : cell) : Prop :=
    In ds (e_diffs E) /\ v = cadd u (df_d ds) /\ inmap E v = true /\
    (forall c, In c (df_pos ds) -> inmap E (cadd u c) = true /\ e_cm E (cadd u c) <= 99).

  (** [route e c0 v c]: a sequence of straight moves from [e] to [v]; starting with [c0], the costs add up to [c]. *)
  Inductive route (e : cell) (c0 : F) : cell -> F -> Prop :=
  | route_start : route e c0 e c0
  | route_move u c ds v : route e c0 u c -> link u ds v -> route e c0 v (fadd K c (weight u ds)).
End Spec.

(** Facts about the numbers; [num] excludes NaN and minus infinity. *)
Record dist_laws {F} (K : cost_ops F) (num : F -> Prop) : Prop := DistLaws {
  dl_base : cost_laws K;
  dl_total : forall a b, num a -> num b -> fltb K a b = false -> fleb K b a = true;
  dl_antisym : forall a b, fleb K a b = true -> fltb K b a = false;
  dl_num_add : forall a w, num a -> num w -> fltb K w (fzero K) = false -> num (fadd K a w);
  dl_add_ge : forall a w, num a -> num w -> fltb K w (fzero K) = false -> fleb K a (fadd K a w) = true;
  dl_mono_l : forall a b w, num a -> num b -> num w -> fltb K w (fzero K) = false -> fleb K a b = true ->
    fleb K (fadd K a w) (fadd K b w) = true;
  dl_mono_r : forall a w w', num a -> num w -> num w' -> fltb K w (fzero K) = false -> fleb K w w' = true ->
    fleb K (fadd K a w) (fadd K a w') = true;
  dl_sub_mono : forall a b o, num a -> num b -> finite K o -> fltb K o (fzero K) = false -> fleb K a b = true ->
    fleb K (fsub K a o) (fsub K b o) = true;
  dl_sub_le : forall a o, num a -> finite K o -> fltb K o (fzero K) = false -> fleb K (fsub K a o) a = true;
  dl_max : num (fmax K);
  dl_max_eq : feqb K (fmax K) (fmax K) = true;
  dl_zero : num (fzero K)
}.
