(** Shared definitions: outcomes with explicit undefined behaviour, C integer
    arithmetic, small list helpers.  No property is stated here. *)
From Coq Require Export List Arith ZArith Lia Bool.
From Coq Require FinFun.
Export ListNotations.

(** Result of running a piece of C++: either a value, or undefined behaviour
    (out-of-bounds access, division by zero, past-the-end iterator ...).
    Not a piece of /repo: modelling vocabulary. *)
Inductive outcome (A : Type) : Type :=
| Ok (a : A)
| UB.
Arguments Ok {A} a.
Arguments UB {A}.

Definition bind {A B} (x : outcome A) (f : A -> outcome B) : outcome B :=
  match x with Ok a => f a | UB => UB end.

Notation "'do' x <- e ; f" := (bind e (fun x => f))
  (at level 200, x binder, e at level 100, f at level 200).

(** Left fold that stops at the first UB. *)
Fixpoint foldM {A S} (f : S -> A -> outcome S) (l : list A) (s : S) : outcome S :=
  match l with
  | [] => Ok s
  | a :: l' => do s' <- f s a; foldM f l' s'
  end.

(** C/C++ [%] and [/] on [int] truncate toward zero. *)
Definition c_rem (a b : Z) : Z := Z.rem a b.
Definition c_quot (a b : Z) : Z := Z.quot a b.

(** 64-bit wrap of [size_t] arithmetic. *)
Definition two64 : Z := 2 ^ 64.
Definition wrap64 (z : Z) : Z := z mod two64.

(** [for (v = lo; v <= hi; ++v)]: the values taken by [v]. *)
Definition range_incl (lo hi : Z) : list Z :=
  map (fun k => (lo + Z.of_nat k)%Z) (seq 0 (Z.to_nat (hi - lo + 1))).

(** [for (v = lo; v < hi; ++v)]. *)
Definition range_excl (lo hi : Z) : list Z := range_incl lo (hi - 1).

Lemma in_range_incl lo hi v : In v (range_incl lo hi) <-> (lo <= v <= hi)%Z.
Proof.
  unfold range_incl. rewrite in_map_iff. split.
  - intros (k & <- & Hk). apply in_seq in Hk. lia.
  - intros H. exists (Z.to_nat (v - lo)). split; [lia|].
    apply in_seq. lia.
Qed.

Lemma in_range_excl lo hi v : In v (range_excl lo hi) <-> (lo <= v < hi)%Z.
Proof. unfold range_excl. rewrite in_range_incl. lia. Qed.

Lemma range_incl_NoDup lo hi : NoDup (range_incl lo hi).
Proof.
  unfold range_incl. apply FinFun.Injective_map_NoDup.
  - intros a b H. lia.
  - apply seq_NoDup.
Qed.

Lemma foldM_app {A S} (f : S -> A -> outcome S) l1 l2 s :
  foldM f (l1 ++ l2) s = (do s' <- foldM f l1 s; foldM f l2 s').
Proof.
  revert s; induction l1 as [|a l1 IH]; intros s; simpl; [reflexivity|].
  destruct (f s a); simpl; auto.
Qed.
