(** Independent specification of a grid map: a finite box of coordinates and a
    partial function from coordinates to values. *)
From Coq Require Import List ZArith Bool Arith.
Import ListNotations.
Local Open Scope Z_scope.

(** [pos] is a cell of a map of the given size. *)
Definition valid (size pos : list Z) : Prop := Forall2 (fun s p => 0 <= p < s) size pos.

(** Coordinatewise comparison: [pos] is in the inclusive box. *)
Fixpoint in_boxb (mn mx pos : list Z) : bool :=
  match mn, mx, pos with
  | [], [], [] => true
  | a :: mn', b :: mx', p :: pos' => (a <=? p) && (p <=? b) && in_boxb mn' mx' pos'
  | _, _, _ => false
  end.

(** Number of memory slots needed for a size, blocks of width [w] in the first
    [nc] dimensions: the only quantity that must be below 2^64. *)
Fixpoint slots (w : Z) (nc : nat) (size : list Z) : Z :=
  match size with
  | [] => 1
  | s :: size' =>
      match nc with
      | S n => ((Z.max s w + w - 1) / w) * w * slots w n size'
      | O => s * slots w O size'
      end
  end.

(** Sizes a map can be given: positive extents, few enough slots. *)
Definition good_size (w : Z) (nc : nat) (size : list Z) : Prop :=
  Forall (fun s => 0 < s) size /\ slots w nc size < 2 ^ 64.

Section Spec.
  Context {V : Type} (nonneg : V -> bool) (w : Z) (nc : nat).

  (** An abstract map: size and contents ([None]: never written since the last
      reset, i.e. indeterminate). *)
  Definition amap : Type := list Z * (list Z -> option V).
  (** Several maps, named by numbers; [None]: not yet given a size. *)
  Definition aworld : Type := nat -> option amap.

  Inductive op :=
  | OReset (i : nat) (size : list Z)
  | OClear (i : nat) (v : V)
  | OClearPositive (i : nat) (v : V)
  | OWrite (i : nat) (pos : list Z) (v : V)
  | OClearPart (i : nat) (v : V) (mn mx : list Z)
  | OCopyPart (i src : nat) (mn mx : list Z)
  | OCopyPartTo (i : nat) (dst_min : list Z) (src : nat) (src_min src_max : list Z)
  | OAssign (i src : nat).

  Definition aset (W : aworld) (i : nat) (m : amap) : aworld :=
    fun j => if (j =? i)%nat then Some m else W j.

  Definition shift (d : list Z -> list Z) (f : list Z -> option V) : list Z -> option V :=
    fun p => f (d p).

  Fixpoint plus (a b : list Z) : list Z :=
    match a, b with x :: a', y :: b' => (x + y) :: plus a' b' | _, _ => [] end.
  Fixpoint minus (a b : list Z) : list Z :=
    match a, b with x :: a', y :: b' => (x - y) :: minus a' b' | _, _ => [] end.

  (** Which operations are legal, and what they do to the abstract maps. *)
  Inductive astep : aworld -> op -> aworld -> Prop :=
  | A_reset W i size : good_size w nc size ->
      astep W (OReset i size) (aset W i (size, fun _ => None))
  | A_clear W i v sz f : W i = Some (sz, f) ->
      astep W (OClear i v) (aset W i (sz, fun _ => Some v))
  | A_clear_positive W i v sz f : W i = Some (sz, f) ->
      astep W (OClearPositive i v)
        (aset W i (sz, fun p => match f p with
                                | Some x => Some (if nonneg x then v else x)
                                | None => None end))
  | A_write W i pos v sz f : W i = Some (sz, f) -> valid sz pos ->
      astep W (OWrite i pos v)
        (aset W i (sz, fun p => if list_eq_dec Z.eq_dec p pos then Some v else f p))
  | A_clear_part W i v mn mx sz f : W i = Some (sz, f) -> length sz = 3%nat ->
      length mn = 3%nat -> length mx = 3%nat ->
      (forall p, in_boxb mn mx p = true -> valid sz p) ->
      astep W (OClearPart i v mn mx)
        (aset W i (sz, fun p => if in_boxb mn mx p then Some v else f p))
  | A_copy_part W i j mn mx sz f sz' f' : i <> j ->
      W i = Some (sz, f) -> W j = Some (sz', f') -> length sz = 3%nat ->
      length mn = 3%nat -> length mx = 3%nat ->
      (forall p, in_boxb mn mx p = true -> valid sz p /\ valid sz' p) ->
      astep W (OCopyPart i j mn mx)
        (aset W i (sz, fun p => if in_boxb mn mx p then f' p else f p))
  | A_copy_part_to W i j dst mn mx sz f sz' f' : i <> j ->
      W i = Some (sz, f) -> W j = Some (sz', f') -> length sz = 3%nat ->
      length dst = 3%nat -> length mn = 3%nat -> length mx = 3%nat ->
      (forall p, in_boxb mn mx p = true -> valid sz' p /\ valid sz (plus p (minus dst mn))) ->
      astep W (OCopyPartTo i dst j mn mx)
        (aset W i (sz, fun p =>
           (* the source cell of destination cell p is p - (dst - mn) *)
           if in_boxb mn mx (minus p (minus dst mn)) then f' (minus p (minus dst mn)) else f p))
  | A_assign W i j sz f : i <> j -> W j = Some (sz, f) ->
      astep W (OAssign i j) (aset W i (sz, f)).

  Inductive aruns : aworld -> list op -> aworld -> Prop :=
  | AR_nil W : aruns W [] W
  | AR_cons W o W1 os W2 : astep W o W1 -> aruns W1 os W2 -> aruns W (o :: os) W2.
End Spec.
Arguments op V : clear implicits.
Arguments amap V : clear implicits.
Arguments aworld V : clear implicits.
