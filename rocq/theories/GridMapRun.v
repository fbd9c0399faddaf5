(** Executing a history of operations on several grid maps. *)
From Verif Require Import Common GridMap GridMapSpec.
Local Open Scope Z_scope.

Section Run.
  Context {V : Type} (nonneg : V -> bool) (nc : nat) (bit : Z) (ev : bool) (vmax : V).

  Definition world : Type := nat -> gmap V.
  Definition wset (w : world) (i : nat) (g : gmap V) : world :=
    fun j => if (j =? i)%nat then g else w j.

  (** One member-function call; [fresh] is what newly allocated memory happens to hold. *)
  Definition cstep (w : world) (o : op V) (fresh : Z -> V) : outcome world :=
    match o with
    | OReset i size => Ok (wset w i (reset nc bit size fresh (w i)))
    | OClear i v => do g <- clear (w i) v; Ok (wset w i g)
    | OClearPositive i v => do g <- clear_positive nonneg (w i) v; Ok (wset w i g)
    | OWrite i pos v => do g <- write nc bit ev (w i) pos v; Ok (wset w i g)
    | OClearPart i v mn mx => do g <- clear_partially nc bit ev (w i) v mn mx; Ok (wset w i g)
    | OCopyPart i j mn mx =>
        do g <- copy_partially nc bit ev vmax (w i) (w j) mn mx; Ok (wset w i g)
    | OCopyPartTo i dst j mn mx =>
        do g <- copy_partially_to nc bit ev vmax (w i) dst (w j) mn mx; Ok (wset w i g)
    | OAssign i j => do g <- assign nc bit (w i) (w j) fresh; Ok (wset w i g)
    end.

  Fixpoint crun (w : world) (l : list (op V * (Z -> V))) : outcome world :=
    match l with
    | [] => Ok w
    | (o, fresh) :: l' => do w1 <- cstep w o fresh; crun w1 l'
    end.

  (** All maps default-constructed. *)
  Definition world_init (junk : nat -> Z -> V) : world := fun i => gmap_init vmax (junk i).
End Run.
