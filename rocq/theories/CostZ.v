(** Exact arithmetic instances of the cost operations: integers and reals with
    a point at infinity standing for FLT_MAX. *)
From Coq Require Import Reals Lra ZifyBool.
From Verif Require Import Common CostAlg.

(** Integers with infinity ([None]).  [ftrunc] is [const int cost_estim = ...]
    (grid_astar.h:218): undefined outside int. *)
Definition zadd (a b : option Z) : option Z :=
  match a, b with Some x, Some y => Some (x + y)%Z | _, _ => None end.
Definition zsub (a b : option Z) : option Z :=
  match a, b with Some x, Some y => Some (x - y)%Z | _, _ => None end.
Definition zlt (a b : option Z) : bool :=
  match a, b with Some x, Some y => (x <? y)%Z | Some _, None => true | None, _ => false end.
Definition zle (a b : option Z) : bool :=
  match a, b with Some x, Some y => (x <=? y)%Z | _, None => true | None, Some _ => false end.
Definition zeq (a b : option Z) : bool :=
  match a, b with Some x, Some y => (x =? y)%Z | None, None => true | _, _ => false end.
Definition ztrunc (a : option Z) : outcome (option Z) :=
  match a with
  | Some x => if (- 2 ^ 31 <=? x)%Z && (x <? 2 ^ 31)%Z then Ok (Some x) else UB
  | None => UB
  end.
Definition KZ : cost_ops (option Z) :=
  mkCostOps _ zadd zsub zlt zle zeq (Some 0%Z) (Some (-1)%Z) None ztrunc.

Lemma KZ_laws : cost_laws KZ.
Proof.
  constructor; simpl; try reflexivity.
  all: try (intros [a|] [b|] [c|]; simpl; try discriminate; try reflexivity; lia).
  all: try (intros [a|] [b|]; simpl; try discriminate; try reflexivity; lia).
  all: try (intros [a|]; simpl; try reflexivity; lia).
Qed.

Lemma KZ_exact : exact_laws KZ.
Proof.
  constructor; unfold finite; simpl; try reflexivity.
  all: try (intros [a|] [b|] [c|]; simpl; try discriminate; try reflexivity; try lia; f_equal; lia).
  all: try (intros [a|] [b|]; simpl; try discriminate; try reflexivity; try lia; intros; f_equal; lia).
  all: try (intros [a|]; simpl; try discriminate; try reflexivity; try lia; f_equal; lia).
  intros [a|] b; simpl; [|discriminate]. intros Ha.
  destruct (_ && _); [|discriminate]. intros E. injection E as <-. simpl. lia.
Qed.

Lemma KZ_leave : leave_laws KZ.
Proof.
  constructor; simpl.
  - intros [a|] [b|]; simpl; try reflexivity; lia.
  - intros [a|] [b|]; simpl; try reflexivity; lia.
  - intros a b H E. eapply (ex_trunc _ KZ_exact); eauto.
Qed.

(** Reals with infinity: what float32 approximates. *)
Local Open Scope R_scope.
Definition rb {P Q : Prop} (d : {P} + {Q}) : bool := if d then true else false.
Definition radd (a b : option R) : option R :=
  match a, b with Some x, Some y => Some (x + y) | _, _ => None end.
Definition rsub (a b : option R) : option R :=
  match a, b with Some x, Some y => Some (x - y) | _, _ => None end.
Definition rltb (a b : option R) : bool :=
  match a, b with Some x, Some y => rb (Rlt_dec x y) | Some _, None => true | None, _ => false end.
Definition rleb (a b : option R) : bool :=
  match a, b with Some x, Some y => rb (Rle_dec x y) | _, None => true | None, Some _ => false end.
Definition reqb (a b : option R) : bool :=
  match a, b with Some x, Some y => rb (Req_EM_T x y) | None, None => true | _, _ => false end.
(** Truncation towards zero. *)
Definition rtruncZ (x : R) : Z := if Rle_dec 0 x then Int_part x else (- Int_part (- x))%Z.
Definition rtrunc (a : option R) : outcome (option R) :=
  match a with
  | Some x => if (- 2 ^ 31 <=? rtruncZ x)%Z && (rtruncZ x <? 2 ^ 31)%Z then Ok (Some (IZR (rtruncZ x))) else UB
  | None => UB
  end.
Definition KR : cost_ops (option R) :=
  mkCostOps _ radd rsub rltb rleb reqb (Some 0) (Some (-1)) None rtrunc.

Ltac rdec := unfold rb in *; repeat match goal with
  | H : context [Rlt_dec ?a ?b] |- _ => destruct (Rlt_dec a b)
  | H : context [Rle_dec ?a ?b] |- _ => destruct (Rle_dec a b)
  | H : context [Req_EM_T ?a ?b] |- _ => destruct (Req_EM_T a b)
  | |- context [Rlt_dec ?a ?b] => destruct (Rlt_dec a b)
  | |- context [Rle_dec ?a ?b] => destruct (Rle_dec a b)
  | |- context [Req_EM_T ?a ?b] => destruct (Req_EM_T a b)
  end; try discriminate; try reflexivity; try (exfalso; lra).

Lemma KR_laws : cost_laws KR.
Proof.
  constructor; simpl; try reflexivity.
  all: try (intros [a|] [b|] [c|]; simpl; intros; rdec; fail).
  all: try (intros [a|] [b|]; simpl; intros; rdec; fail).
  all: try (intros [a|]; simpl; intros; rdec; fail).
  all: rdec.
Qed.

Lemma KR_exact : exact_laws KR.
Proof.
  constructor; unfold finite; simpl; try reflexivity.
  all: try (intros [a|] [b|] [c|]; simpl; intros; rdec; try (f_equal; ring); fail).
  all: try (intros [a|] [b|]; simpl; intros; rdec; try (f_equal; ring); fail).
  all: try (intros [a|]; simpl; intros; rdec; try (f_equal; ring); fail).
  intros [a|] b; simpl; [|discriminate]. intros Ha.
  destruct (_ && _); [|discriminate]. intros E. injection E as <-.
  assert (H0 : 0 <= a) by (unfold rb in Ha; destruct (Rlt_dec a 0); [discriminate|lra]).
  unfold rtruncZ. destruct (Rle_dec 0 a); [|contradiction].
  destruct (base_Int_part a) as [H1 H2].
  assert (H3 : 0 <= IZR (Int_part a)).
  { apply IZR_le. assert (-1 < Int_part a)%Z; [|lia]. apply lt_IZR. lra. }
  simpl. unfold rb. destruct (Rle_dec (IZR (Int_part a)) a); [|lra]. destruct (Rlt_dec (IZR (Int_part a)) 0); [lra|auto].
Qed.

Lemma KR_leave : leave_laws KR.
Proof.
  constructor; simpl.
  - intros [a|] [b|]; simpl; intros; rdec.
  - intros [a|] [b|]; simpl; intros; rdec.
  - intros a b H E. eapply (ex_trunc _ KR_exact); eauto.
Qed.
