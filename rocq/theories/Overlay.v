(** Model of planner_cspace/src/planner_3d.cpp: cbMap (988-1108), cbMapUpdate (966-987) and the costmap part of
    applyCostmapUpdate (777-893): the static costmap, the dynamic update laid over it, and the update that is kept for the next map.
    Grids are total functions with checked accesses; the injectivity of their addressing is C01-C03 (GridMap).
    Left out: metrics and logging, the hysteresis map (only its bounds are checked), the remembered costmap (Bbf), the distance map
    (DistMap) and the search windows handed to it. *)
From Verif Require Import Common DistMap.
Local Open Scope Z_scope.

Definition cell3 := (cell * Z)%type.
Definition cell3_dec (a b : cell3) : {a = b} + {a <> b}.
Proof. decide equality; [apply Z.eq_dec|apply cell_dec]. Defined.
Definition upd3 {A} (f : cell3 -> A) (c : cell3) (a : A) : cell3 -> A := fun x => if cell3_dec x c then a else f x.

(** uint32, int and char conversions. *)
Definition u32 (z : Z) : Z := z mod 2 ^ 32.
Definition i32 (z : Z) : Z := (z + 2 ^ 31) mod 2 ^ 32 - 2 ^ 31.
Definition i8 (z : Z) : Z := (z + 2 ^ 7) mod 2 ^ 8 - 2 ^ 7.

(** costmap_cspace_msgs/CSpace3DUpdate (x, y, yaw, width, height, angle are uint32; data is int8[]) and CSpace3D. *)
Record umsg := UMsg { u_stamp : Z; u_x : Z; u_y : Z; u_yaw : Z; u_w : Z; u_h : Z; u_a : Z; u_data : list Z }.
Record mmsg := MMsg { m_stamp : Z; m_w : Z; m_h : Z; m_a : Z; m_data : list Z }.

(** data[addr] of a message. *)
Definition at_ (d : list Z) (a : Z) : outcome Z :=
  if a <? 0 then UB else match nth_error d (Z.to_nat a) with Some c => Ok c | None => UB end.
(** 846 and 866: uint32 arithmetic. *)
Definition u_at (m : umsg) (p : cell) (t : Z) : outcome Z :=
  at_ (u_data m) (u32 (u32 (u32 (u32 (t * u_h m) + snd p) * u_w m) + fst p)).
(** 1062: int arithmetic. *)
Definition m_at (m : mmsg) (p : cell) (t : Z) : outcome Z := at_ (m_data m) ((t * m_h m + snd p) * m_w m + fst p).

(** The members used here: map_info_, cm_, cm_base_, cm_rough_, cm_rough_base_, cm_updates_, prev_map_update_*, map_update_retained_. *)
Record ov := Ov {
  o_w : Z; o_h : Z; o_a : Z;
  o_cm : cell3 -> Z; o_base : cell3 -> Z; o_rough : cell -> Z; o_rbase : cell -> Z; o_upd : cell -> Z;
  o_min : cell; o_max : cell; o_kept : option umsg }.

Section Overlay.
  Variable unknown_cost : Z.      (* unknown_cost_ *)
  Variable overwrite : bool.      (* overwrite_cost_ *)

  Definition in2 (o : ov) (c : cell) : bool := (0 <=? fst c) && (fst c <? o_w o) && (0 <=? snd c) && (snd c <? o_h o).
  Definition in3 (o : ov) (c : cell3) : bool := in2 o (fst c) && (0 <=? snd c) && (snd c <? o_a o).
  Definition guard (b : bool) : outcome unit := if b then Ok tt else UB.

  (** The x-then-y loops. *)
  Definition columns (w h : Z) : list cell := list_prod (range_excl 0 w) (range_excl 0 h).

  (** 787-797. *)
  Definition too_large (o : ov) (m : umsg) : bool :=
    (o_w o <=? Z.max (i32 (u32 (u_x m + u_w m)) - 1) 0) || (o_h o <=? Z.max (i32 (u32 (u_y m + u_h m)) - 1) 0) || (o_a o <? u_a m).

  (** 801-813, copy_partially and clear_partially over the previous area. *)
  Definition restore (o : ov) : outcome ov :=
    let area := list_prod (range_incl (fst (o_min o)) (fst (o_max o))) (range_incl (snd (o_min o)) (snd (o_max o))) in
    do cm <- foldM (fun f c => do _ <- guard (in3 o c); Ok (upd3 f c (o_base o c))) (list_prod area (range_incl 0 (o_a o - 1))) (o_cm o);
    do ro <- foldM (fun f c => do _ <- guard (in2 o c); Ok (upd f c (o_rbase o c))) area (o_rough o);
    do up <- foldM (fun f c => do _ <- guard (in2 o c); Ok (upd f c (-1))) area (o_upd o);
    Ok (Ov (o_w o) (o_h o) (o_a o) cm (o_base o) ro (o_rbase o) up (o_min o) (o_max o) (o_kept o)).

  (** 843-852: the smallest cost of a column, reading the hysteresis map where the cost is 100. *)
  Definition column_min (o : ov) (m : umsg) (p : cell) : outcome Z :=
    foldM (fun acc t => do c <- u_at m p t;
                        do _ <- guard (negb (c =? 100) || in3 o (cadd (i32 (u_x m), i32 (u_y m)) p, i32 (u_yaw m) + t));
                        Ok (if c <? acc then c else acc)) (range_excl 0 (i32 (u_a m))) 100.
  (** 838-881: one column of the update. *)
  Definition column (m : umsg) (o : ov) (p : cell) : outcome ov :=
    do cost_min <- column_min o m p;
    let g := cadd (i32 (u_x m), i32 (u_y m)) p in
    do _ <- guard (in2 o g);
    let up := upd (o_upd o) g cost_min in
    let ro := if o_rough o g <? cost_min then upd (o_rough o) g cost_min else o_rough o in
    do cm <- foldM (fun cm t => do c <- u_at m p t;
                                let gp := (g, i32 (u_yaw m) + t) in
                                do _ <- guard (in3 o gp);
                                Ok (if overwrite then (if 0 <=? c then upd3 cm gp c else cm)
                                    else (if cm gp <? c then upd3 cm gp c else cm))) (range_excl 0 (i32 (u_a m))) (o_cm o);
    Ok (Ov (o_w o) (o_h o) (o_a o) cm (o_base o) ro (o_rbase o) up (o_min o) (o_max o) (o_kept o)).

  Definition keep (o : ov) (k : option umsg) : ov :=
    Ov (o_w o) (o_h o) (o_a o) (o_cm o) (o_base o) (o_rough o) (o_rbase o) (o_upd o) (o_min o) (o_max o) k.
  Definition set_area (o : ov) (lo hi : cell) : ov :=
    Ov (o_w o) (o_h o) (o_a o) (o_cm o) (o_base o) (o_rough o) (o_rbase o) (o_upd o) lo hi (o_kept o).

  (** applyCostmapUpdate, 777-883. *)
  Definition apply_update (o : ov) (m : umsg) : outcome ov :=
    if too_large o m then Ok (keep o (Some m))
    else
      do o1 <- restore o;
      let o2 := set_area o1 (i32 (u_x m), i32 (u_y m))
                  (Z.max (i32 (u32 (u_x m + u_w m)) - 1) 0, Z.max (i32 (u32 (u_y m + u_h m)) - 1) 0) in
      do o3 <- foldM (column m) (columns (i32 (u_w m)) (i32 (u_h m))) o2;
      Ok (keep o3 None).

  (** 1054-1074: copying the static map; a negative cost becomes unknown_cost_. *)
  Definition static_cost (c : Z) : Z := if c <? 0 then i8 unknown_cost else c.
  Definition copy_column (m : mmsg) (s : (cell3 -> Z) * (cell -> Z)) (p : cell) : outcome ((cell3 -> Z) * (cell -> Z)) :=
    do r <- foldM (fun '(cm, acc) t => do c0 <- m_at m p t; let c := static_cost c0 in
                                       Ok (upd3 cm (p, t) c, if c <? acc then c else acc)) (range_excl 0 (m_a m)) (fst s, 100);
    Ok (fst r, upd (snd s) p (snd r)).

  (** cbMap, 988-1108. *)
  Definition load_map (kept : option umsg) (m : mmsg) : outcome ov :=
    do g <- foldM (copy_column m) (columns (m_w m) (m_h m)) ((fun _ => 0), (fun _ => 0));
    Ok (Ov (m_w m) (m_h m) (m_a m) (fst g) (fst g) (snd g) (snd g) (fun _ => 0) (m_w m, m_h m) (0, 0) kept).
  Definition cb_map (kept : option umsg) (m : mmsg) : outcome ov :=
    do o <- load_map kept m;
    do o' <- match kept with
             | Some u => if m_stamp m <=? u_stamp u then apply_update o u else Ok o
             | None => Ok o
             end;
    Ok (keep o' None).

  (** The two subscriptions.  [None]: no map yet (has_map_ is false), updates are ignored (cbMapUpdate, 968-969). *)
  Inductive oevent := EMap (m : mmsg) | EUpdate (u : umsg).
  Definition ostep (s : option ov) (e : oevent) : outcome (option ov) :=
    match e, s with
    | EMap m, None => do o <- cb_map None m; Ok (Some o)
    | EMap m, Some o => do o' <- cb_map (o_kept o) m; Ok (Some o')
    | EUpdate _, None => Ok None
    | EUpdate u, Some o => do o' <- apply_update o u; Ok (Some o')
    end.
  Definition orun (es : list oevent) : outcome (option ov) := foldM ostep es None.
End Overlay.
