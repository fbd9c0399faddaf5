(** Model of planner_cspace/include/planner_cspace/blockmem_gridmap.h
    (class BlockMemGridmap), for every DIM, NONCYCLIC and BLOCK_WIDTH = 2^bit.

    - Positions and sizes are lists of integers of length DIM ([int] values; no
      [int] overflow is modelled: sizes are assumed below 2^31 - BLOCK_WIDTH,
      where the only [int] sum, line 213, cannot overflow).
    - [size_t] arithmetic wraps at 2^64.
    - The heap block [c_] is a total function from index to value together with
      its capacity; any access at or beyond the capacity is UB.  Newly allocated
      memory has arbitrary contents, given by the argument [fresh]. *)
From Verif Require Import Common.
Local Open Scope Z_scope.

Section GridMap.
  Context {V : Type}.
  (** template parameters: NONCYCLIC, log2 BLOCK_WIDTH, ENABLE_VALIDATION;
      [vmax] is std::numeric_limits<T>::max(). *)
  Variables (nc : nat) (bit : Z) (ev : bool) (vmax : V).

  (** blockmem_gridmap.h:86-93, the data members. *)
  Record gmap := mkGmap {
    g_size : list Z;      (* size_ *)
    g_bsize : list Z;     (* block_size_ *)
    g_ser : Z;            (* ser_size_ *)
    g_cap : Z;            (* ser_capacity_ *)
    g_bser : Z;           (* block_ser_size_ *)
    g_buf : Z -> V;       (* c_ *)
    g_dummy : V           (* dummy_ *)
  }.

  (** blockmem_gridmap.h:74-84: BLOCK_WIDTH, block_bit_mask_. *)
  Definition block_width : Z := 2 ^ bit.
  Definition block_mask : Z := Z.shiftl 1 bit - 1.

  (** blockmem_gridmap.h:95-111 [block_addr], both loops, with the two
      accumulators; returns (baddr, addr). *)
  Fixpoint block_addr_loop (n : nat) (pos size bsize : list Z) (baddr addr : Z) : Z * Z :=
    match pos, size, bsize with
    | p :: pos', s :: size', b :: bsize' =>
        match n with
        | S n' =>
            block_addr_loop n' pos' size' bsize'
              (wrap64 (wrap64 (baddr * wrap64 b) + wrap64 (Z.shiftr p bit)))
              (wrap64 (wrap64 (Z.shiftl addr bit) + Z.land (wrap64 p) block_mask))
        | O =>
            block_addr_loop O pos' size' bsize' baddr
              (wrap64 (wrap64 (addr * wrap64 s) + wrap64 p))
        end
    | _, _, _ => (baddr, addr)
    end.

  (** blockmem_gridmap.h:245-247 / 257-259: the slot index of a position. *)
  Definition slot (g : gmap) (pos : list Z) : Z :=
    let '(baddr, addr) := block_addr_loop nc pos (g_size g) (g_bsize g) 0 0 in
    wrap64 (wrap64 (baddr * g_bser g) + addr).

  (** blockmem_gridmap.h:199-223: the loops of [reset]; returns
      (block_size_, block_ser_size_, block_num_). *)
  Fixpoint reset_loop (n : nat) (size : list Z) (bser bnum : Z) : list Z * Z * Z :=
    match size with
    | [] => ([], bser, bnum)
    | s :: size' =>
        match n with
        | S n' =>
            let st := if s <? block_width then block_width else s in
            let b := c_quot (st + block_width - 1) block_width in
            let '(bs, bser', bnum') :=
              reset_loop n' size' (wrap64 (bser * block_width)) (wrap64 (bnum * wrap64 b)) in
            (b :: bs, bser', bnum')
        | O =>
            let '(bs, bser', bnum') :=
              reset_loop O size' (wrap64 (bser * wrap64 s)) (wrap64 (bnum * 1)) in
            (1 :: bs, bser', bnum')
        end
    end.

  (** blockmem_gridmap.h:195-232 [reset]. *)
  Definition reset (size : list Z) (fresh : Z -> V) (g : gmap) : gmap :=
    let '(bs, bser, bnum) := reset_loop nc size 1 1 in
    let ser := wrap64 (bser * bnum) in
    if (ser <? g_cap g / 2) || (g_cap g <? ser)
    then mkGmap size bs ser ser bser fresh (g_dummy g)
    else mkGmap size bs ser (g_cap g) bser (g_buf g) (g_dummy g).

  (** blockmem_gridmap.h:238-242 default constructor: nothing allocated.  The
      uninitialised members are given as 0 / empty; no operation other than
      [reset] may be applied to such an object. *)
  Definition gmap_init (junk : Z -> V) : gmap := mkGmap [] [] 0 0 0 junk vmax.

  (** blockmem_gridmap.h:255-266 [operator[] const]. *)
  Definition read (g : gmap) (pos : list Z) : outcome V :=
    let a := slot g pos in
    if ev && (g_ser g <=? a) then Ok vmax
    else if a <? g_cap g then Ok (g_buf g a) else UB.

  Definition upd_buf (f : Z -> V) (a : Z) (v : V) : Z -> V :=
    fun k => if k =? a then v else f k.

  (** blockmem_gridmap.h:243-254 assignment through [operator[]]. *)
  Definition write (g : gmap) (pos : list Z) (v : V) : outcome gmap :=
    let a := slot g pos in
    if ev && (g_ser g <=? a)
    then Ok (mkGmap (g_size g) (g_bsize g) (g_ser g) (g_cap g) (g_bser g) (g_buf g) v)
    else if a <? g_cap g
    then Ok (mkGmap (g_size g) (g_bsize g) (g_ser g) (g_cap g) (g_bser g)
                    (upd_buf (g_buf g) a v) (g_dummy g))
    else UB.

  (** blockmem_gridmap.h:129-135 [clear]: slots 0 .. ser_size_-1. *)
  Definition clear (g : gmap) (zero : V) : outcome gmap :=
    if g_cap g <? g_ser g then UB
    else Ok (mkGmap (g_size g) (g_bsize g) (g_ser g) (g_cap g) (g_bser g)
                    (fun k => if (0 <=? k) && (k <? g_ser g) then zero else g_buf g k)
                    (g_dummy g)).

  (** blockmem_gridmap.h:282-289 [clear_positive]; [nonneg v] is [v >= 0]. *)
  Definition clear_positive (nonneg : V -> bool) (g : gmap) (zero : V) : outcome gmap :=
    if g_cap g <? g_ser g then UB
    else Ok (mkGmap (g_size g) (g_bsize g) (g_ser g) (g_cap g) (g_bser g)
                    (fun k => if (0 <=? k) && (k <? g_ser g) && nonneg (g_buf g k)
                              then zero else g_buf g k)
                    (g_dummy g)).

  (** The positions visited by the three nested loops of lines 140-150,
      159-169 and 182-193, in order. *)
  Definition box3 (mn mx : list Z) : list (list Z) :=
    match mn, mx with
    | [x0; y0; z0], [x1; y1; z1] =>
        flat_map (fun x => flat_map (fun y => map (fun z => [x; y; z]) (range_incl z0 z1))
                                    (range_incl y0 y1))
                 (range_incl x0 x1)
    | _, _ => []
    end.

  (** blockmem_gridmap.h:136-151 [clear_partially].  The [assert] of line 146 is
      not modelled: as in a release build the access is performed.  Vectors of
      dimension other than 3 are indexed out of range by the code: UB. *)
  Definition clear_partially (g : gmap) (zero : V) (mn mx : list Z) : outcome gmap :=
    if (length (g_size g) =? 3)%nat
    then foldM (fun g p => write g p zero) (box3 mn mx) g
    else UB.

  (** blockmem_gridmap.h:152-170 [copy_partially(base, min, max)]. *)
  Definition copy_partially (g base : gmap) (mn mx : list Z) : outcome gmap :=
    if (length (g_size g) =? 3)%nat
    then foldM (fun g p => do v <- read base p; write g p v) (box3 mn mx) g
    else UB.

  (** cyclic_vec.h:176-195 componentwise + and -. *)
  Fixpoint vadd (a b : list Z) : list Z :=
    match a, b with x :: a', y :: b' => (x + y) :: vadd a' b' | _, _ => [] end.
  Fixpoint vsub (a b : list Z) : list Z :=
    match a, b with x :: a', y :: b' => (x - y) :: vsub a' b' | _, _ => [] end.

  (** blockmem_gridmap.h:171-194 [copy_partially(dst_min, src, src_min, src_max)]. *)
  Definition copy_partially_to (g : gmap) (dst_min : list Z) (src : gmap) (src_min src_max : list Z)
    : outcome gmap :=
    if (length (g_size g) =? 3)%nat
    then let offset := vsub dst_min src_min in
         foldM (fun g p => do v <- read src p; write g (vadd p offset) v) (box3 src_min src_max) g
    else UB.

  (** blockmem_gridmap.h:290-297 [operator=] between two distinct maps. *)
  Definition assign (g src : gmap) (fresh : Z -> V) : outcome gmap :=
    let g1 := reset (g_size src) fresh g in
    if (g_cap g1 <? g_ser g1) || (g_cap src <? g_ser g1) then UB
    else Ok (mkGmap (g_size g1) (g_bsize g1) (g_ser g1) (g_cap g1) (g_bser g1)
                    (fun k => if (0 <=? k) && (k <? g_ser g1) then g_buf src k else g_buf g1 k)
                    (g_dummy g1)).

  (** blockmem_gridmap.h:267-280 [validate]. *)
  Fixpoint validate_loop (n : nat) (size pos : list Z) (tol : Z) : bool :=
    match size, pos with
    | s :: size', p :: pos' =>
        match n with
        | S n' => if (p <? tol) || (s - tol <=? p) then false else validate_loop n' size' pos' tol
        | O => if (p <? 0) || (s <=? p) then false else validate_loop O size' pos' tol
        end
    | _, _ => true
    end.
  Definition validate (g : gmap) (pos : list Z) (tol : Z) : bool :=
    validate_loop nc (g_size g) pos tol.
End GridMap.
Arguments gmap V : clear implicits.
