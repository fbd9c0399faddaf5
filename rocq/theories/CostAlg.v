(** Arithmetic of path costs.  The code uses [float] (IEEE binary32).  The
    search model is parametric in the operations; [cost_laws] are the few facts
    the soundness proofs need and that hold for binary32 (rounding is monotone),
    [exact_laws] are the facts of exact arithmetic needed for optimality. *)
From Verif Require Import Common.

Record cost_ops (F : Type) := mkCostOps {
  fadd : F -> F -> F;
  fsub : F -> F -> F;
  fltb : F -> F -> bool;      (* a < b, false when unordered *)
  fleb : F -> F -> bool;      (* a <= b, false when unordered *)
  feqb : F -> F -> bool;      (* a == b *)
  fzero : F;
  fneg1 : F;
  fmax : F;                   (* std::numeric_limits<float>::max() *)
  ftrunc : F -> outcome F     (* conversion to int and back; UB if out of range *)
}.
Arguments fadd {F}. Arguments fsub {F}. Arguments fltb {F}. Arguments fleb {F}. Arguments feqb {F}.
Arguments fzero {F}. Arguments fneg1 {F}. Arguments fmax {F}. Arguments ftrunc {F}.

Record cost_laws {F} (K : cost_ops F) : Prop := mkCostLaws {
  lw_le_trans : forall a b c, fleb K a b = true -> fleb K b c = true -> fleb K a c = true;
  lw_le_lt_trans : forall a b c, fleb K a b = true -> fltb K b c = true -> fltb K a c = true;
  lw_lt_le_trans : forall a b c, fltb K a b = true -> fleb K b c = true -> fltb K a c = true;
  lw_lt_le : forall a b, fltb K a b = true -> fleb K a b = true;
  lw_lt_irrefl : forall a, fltb K a a = false;
  lw_le_refl_l : forall a b, fleb K a b = true -> fleb K a a = true;
  lw_le_refl_r : forall a b, fleb K a b = true -> fleb K b b = true;
  (** adding something that does not compare below zero does not decrease *)
  lw_add_le : forall a b x, fltb K b (fzero K) = false -> fltb K (fadd K a b) x = true ->
              fleb K a (fadd K a b) = true;
  lw_zero : fleb K (fzero K) (fzero K) = true;
  lw_neg1 : fltb K (fneg1 K) (fzero K) = true
}.

(** Exact arithmetic: [finite a] iff [a < fmax]. *)
Definition finite {F} (K : cost_ops F) (a : F) : Prop := fltb K a (fmax K) = true.

Record exact_laws {F} (K : cost_ops F) : Prop := mkExactLaws {
  ex_total : forall a b, fltb K a b = false -> fleb K b a = true;
  ex_antisym : forall a b, fleb K a b = true -> fltb K b a = false;
  ex_eqb_max : forall a, feqb K a (fmax K) = false -> fltb K (fmax K) a = false -> finite K a;
  ex_le_max : forall a, fleb K a (fmax K) = true;
  ex_max_eqb : forall a, finite K a -> feqb K a (fmax K) = false;
  ex_zero_fin : finite K (fzero K);
  ex_add_fin : forall a b, finite K a -> finite K b -> finite K (fadd K a b);
  ex_add_assoc : forall a b c, fadd K (fadd K a b) c = fadd K a (fadd K b c);
  ex_add_comm : forall a b, fadd K a b = fadd K b a;
  ex_add_sub : forall a b, finite K b -> fsub K (fadd K a b) b = a;
  ex_add_zero : forall a, fadd K a (fzero K) = a;
  ex_add_mono : forall a b c, fleb K a b = true -> fleb K (fadd K a c) (fadd K b c) = true;
  ex_add_cancel : forall a b c, finite K c -> fleb K (fadd K a c) (fadd K b c) = true -> fleb K a b = true;
  ex_trunc : forall a b, fltb K a (fzero K) = false -> ftrunc K a = Ok b ->
             fleb K b a = true /\ fltb K b (fzero K) = false
}.

(** Facts about the early-leave test [(c + h) - c < threshold]; they hold for
    exact arithmetic and for binary32. *)
Record leave_laws {F} (K : cost_ops F) : Prop := mkLeaveLaws {
  lv_sub_l : forall a b, fltb K b (fzero K) = false -> fltb K (fsub K (fadd K a b) a) (fzero K) = false;
  lv_sub_r : forall a b, fltb K b (fzero K) = false -> fltb K (fsub K (fadd K b a) a) (fzero K) = false;
  lv_trunc : forall a b, fltb K a (fzero K) = false -> ftrunc K a = Ok b -> fltb K b (fzero K) = false
}.
