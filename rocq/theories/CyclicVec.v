(** Model of planner_cspace/include/planner_cspace/cyclic_vec.h.
    Vectors are lists of integers ([T = int]); [nc] is the template argument
    NONCYCLIC.  Component values are unbounded [Z]: the only arithmetic is [%],
    and adding or subtracting [res] to a value already reduced below [res], so
    no 32-bit overflow can occur for [int] inputs with [res > 0]. *)
From Verif Require Import Common.
Local Open Scope Z_scope.

(** cyclic_vec.h:106-115 [cycleElement]: signed normalisation of one component.
    [e % 0] is undefined behaviour. *)
Definition cycleElement (e res : Z) : outcome Z :=
  if res =? 0 then UB
  else
    let e1 := c_rem e res in
    if e1 <? c_quot res 2 - res then Ok (e1 + res)
    else if c_quot res 2 <=? e1 then Ok (e1 - res)
    else Ok e1.

(** cyclic_vec.h:128-135 [cycleUnsignedElement]. *)
Definition cycleUnsignedElement (e res : Z) : outcome Z :=
  if res =? 0 then UB
  else
    let e1 := c_rem e res in
    if e1 <? 0 then Ok (e1 + res) else Ok e1.

(** Componentwise application from index NONCYCLIC on, as in the loops
    cyclic_vec.h:299-300 and 306-307 (and the variadic forms 99-105, 121-127,
    which apply the same function to the same components).  The first [nc]
    components are left alone. *)
Fixpoint cycleWith (f : Z -> Z -> outcome Z) (nc : nat) (v res : list Z) : outcome (list Z) :=
  match v, res with
  | [], [] => Ok []
  | e :: v', r :: res' =>
      match nc with
      | S nc' => do t <- cycleWith f nc' v' res'; Ok (e :: t)
      | O => do e' <- f e r; do t <- cycleWith f O v' res'; Ok (e' :: t)
      end
  | _, _ => UB (* different DIM: rejected by the C++ type checker *)
  end.

(** cyclic_vec.h:295-301 [cycle(res)]. *)
Definition cycle (nc : nat) (v res : list Z) : outcome (list Z) := cycleWith cycleElement nc v res.

(** cyclic_vec.h:302-308 [cycleUnsigned(res)]. *)
Definition cycleUnsigned (nc : nat) (v res : list Z) : outcome (list Z) :=
  cycleWith cycleUnsignedElement nc v res.

(** cyclic_vec.h:163-170 [operator==]: all components equal. *)
Fixpoint vec_eqb (a b : list Z) : bool :=
  match a, b with
  | [], [] => true
  | x :: a', y :: b' => (x =? y) && vec_eqb a' b'
  | _, _ => false
  end.

(** cyclic_vec.h:176-185 [operator+] on [int] vectors. *)
Definition vec_add (a b : list Z) : list Z := map (fun '(x, y) => x + y) (combine a b).

(** [static_cast<unsigned int>] of a 32-bit [int]. *)
Definition to_u32 (z : Z) : Z := z mod 2 ^ 32.

(** cyclic_vec.h:323-333 [isExceeded]: unsigned comparison of the first NONCYCLIC components. *)
Definition isExceeded (nc : nat) (v sz : list Z) : bool :=
  existsb (fun '(a, s) => to_u32 s <=? to_u32 a) (firstn nc (combine v sz)).
