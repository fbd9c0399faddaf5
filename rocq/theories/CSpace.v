(** Model of the 3-D costmap message, the update region and the inflation
    template cache
    (/repo/costmap_cspace/include/costmap_cspace/costmap_3d_layer/base.h,
     /repo/costmap_cspace/include/costmap_cspace/cspace3_cache.h). *)
From Verif Require Import Common.
Local Open Scope Z_scope.

(** CSpace3DMsg: info.width/height/angle and data, base.h:48-93. *)
Record cmap := Cmap { cw : Z; ch : Z; ca : Z; cdata : list Z }.
(** CSpace3DMsg::address, base.h:53-56. *)
Definition address (m : cmap) (x y yaw : Z) : Z := (yaw * ch m + y) * cw m + x.

Definition in_rangeb (lo v hi : Z) : bool := (lo <=? v) && (v <? hi).
(** The ROS_ASSERTs of getCost, base.h:59-64, 70-75. *)
Definition assert_cell (m : cmap) (x y yaw : Z) : bool :=
  in_rangeb 0 yaw (ca m) && in_rangeb 0 x (cw m) && in_rangeb 0 y (ch m) &&
  in_rangeb 0 (address m x y yaw) (Z.of_nat (length (cdata m))).

Fixpoint replace_nth (n : nat) (v : Z) (l : list Z) : list Z :=
  match l, n with
  | [], _ => []
  | _ :: l', O => v :: l'
  | a :: l', S n' => a :: replace_nth n' v l'
  end.

(** Reading and writing through getCost, base.h:57-78.  A failing assertion is [UB]. *)
Definition getc (m : cmap) (x y yaw : Z) : outcome Z :=
  if assert_cell m x y yaw then Ok (nth (Z.to_nat (address m x y yaw)) (cdata m) (-1)) else UB.
Definition setc (m : cmap) (x y yaw v : Z) : outcome cmap :=
  if assert_cell m x y yaw
  then Ok (Cmap (cw m) (ch m) (ca m) (replace_nth (Z.to_nat (address m x y yaw)) v (cdata m)))
  else UB.

(** memcpy of [n] cells; [UB] if either range leaves its array.  Used by
    copyCells (base.h:79-92) and bitblt (240-241). *)
Definition blit (dst : list Z) (doff : Z) (src : list Z) (soff n : Z) : outcome (list Z) :=
  if (0 <=? n) && (0 <=? doff) && (doff + n <=? Z.of_nat (length dst)) &&
     (0 <=? soff) && (soff + n <=? Z.of_nat (length src))
  then Ok (firstn (Z.to_nat doff) dst ++ firstn (Z.to_nat n) (skipn (Z.to_nat soff) src) ++
           skipn (Z.to_nat (doff + n)) dst)
  else UB.

(** UpdatedRegion, base.h:101-131. *)
Record region := Region { rx : Z; ry : Z; rz : Z; rw : Z; rh : Z; ra : Z; rstamp : Z }.
Definition empty_region : region := Region 0 0 0 0 0 0 0.
Definition zero_size (r : region) : bool := (rw r =? 0) || (rh r =? 0) || (ra r =? 0).

(** UpdatedRegion::merge, base.h:132-169. *)
Definition merge (t r : region) : region :=
  if zero_size r then t
  else if zero_size t then r
  else
    let stamp := if rstamp t <? rstamp r then rstamp r else rstamp t in
    let x2 := rx t + rw t in let y2 := ry t + rh t in let z2 := rz t + ra t in
    let mx2 := rx r + rw r in let my2 := ry r + rh r in let mz2 := rz r + ra r in
    let x := if rx r <? rx t then rx r else rx t in
    let y := if ry r <? ry t then ry r else ry t in
    let z := if rz r <? rz t then rz r else rz t in
    let x2 := if x2 <? mx2 then mx2 else x2 in
    let y2 := if y2 <? my2 then my2 else y2 in
    let z2 := if z2 <? mz2 then mz2 else z2 in
    Region x y z (x2 - x) (y2 - y) (z2 - z) stamp.

(** UpdatedRegion::expand, base.h:170-177. *)
Definition expand (r : region) (ex : Z) : region :=
  Region (rx r - ex) (ry r - ex) (rz r) (rw r + 2 * ex) (rh r + 2 * ex) (ra r) (rstamp r).

(** UpdatedRegion::normalize, base.h:178-215. *)
Definition normalize (r : region) (fw fh : Z) : region :=
  let '(x, w) := if rx r <? 0 then (0, rw r + rx r) else (rx r, rw r) in
  let '(y, h) := if ry r <? 0 then (0, rh r + ry r) else (ry r, rh r) in
  let w := if fw <? x + w then fw - x else w in
  let h := if fh <? y + h then fh - y else h in
  let w := if w <? 0 then 0 else w in
  let h := if h <? 0 then 0 else h in
  Region x y (rz r) w h (ra r) (rstamp r).

(** UpdatedRegion::bitblt, base.h:216-248: the (normalised) region and the new
    destination.  A negative first yaw index is converted to a huge size_t, so
    nothing is copied. *)
Definition bitblt (r : region) (dest src : cmap) : outcome (region * cmap) :=
  if (ca dest =? ca src) && (cw dest =? cw src) && (ch dest =? ch src) then
    let r := normalize r (cw src) (ch src) in
    if (rw r =? 0) || (rh r =? 0) then Ok (r, dest)
    else
      let len := Z.min (rw r) (cw src - rx r) in
      let angles := if rz r <? 0 then [] else range_excl (rz r) (Z.min (rz r + ra r) (ca src)) in
      do d <- foldM (fun d a =>
          foldM (fun d y =>
              do data <- blit (cdata d) (address d (rx r) (ry r) a + (y - ry r) * cw d)
                              (cdata src) (address src (rx r) (ry r) a + (y - ry r) * cw src) len;
              Ok (Cmap (cw d) (ch d) (ca d) data))
            (range_excl (ry r) (Z.min (ry r + rh r) (ch src))) d)
        angles dest;
      Ok (r, d)
  else UB.

(** CSpace3Cache, cspace3_cache.h:39-103: an array of (2x+1)*(2y+1)*yaw cells. *)
Record cache := Cache { kx : Z; ky : Z; ka : Z; kdata : list Z }.
(** reset, 58-73. *)
Definition cache_reset (x y yaw : Z) : cache :=
  Cache x y yaw (repeat 0 (Z.to_nat ((x * 2 + 1) * (y * 2 + 1) * yaw))).
(** The address computation of e, 77, 84. *)
Definition cache_addr (k : cache) (x y yaw : Z) : Z :=
  yaw * ((kx k * 2 + 1) * (ky k * 2 + 1)) + (y + ky k) * (kx k * 2 + 1) + (x + kx k).
Definition cache_assert (k : cache) (x y yaw : Z) : bool :=
  in_rangeb 0 (cache_addr k x y yaw) (Z.of_nat (length (kdata k))).
Definition cache_get (k : cache) (x y yaw : Z) : outcome Z :=
  if cache_assert k x y yaw then Ok (nth (Z.to_nat (cache_addr k x y yaw)) (kdata k) 0) else UB.
Definition cache_set (k : cache) (x y yaw v : Z) : outcome cache :=
  if cache_assert k x y yaw
  then Ok (Cache (kx k) (ky k) (ka k) (replace_nth (Z.to_nat (cache_addr k x y yaw)) v (kdata k))) else UB.

(** * Specification vocabulary *)

(** A cell of a map, and its cost as a reader of the message sees it. *)
Definition cell : Type := (Z * Z * Z)%type.
Definition in_map (m : cmap) (c : cell) : Prop :=
  let '(x, y, a) := c in 0 <= x < cw m /\ 0 <= y < ch m /\ 0 <= a < ca m.
Definition peek (m : cmap) (c : cell) : Z :=
  let '(x, y, a) := c in nth (Z.to_nat (address m x y a)) (cdata m) (-1).
Definition wf (m : cmap) : Prop :=
  0 <= cw m /\ 0 <= ch m /\ 0 <= ca m /\ Z.of_nat (length (cdata m)) = cw m * ch m * ca m.
Definition same_dims (m m' : cmap) : Prop := cw m = cw m' /\ ch m = ch m' /\ ca m = ca m'.
(** Cells of a region. *)
Definition in_region (r : region) (c : cell) : Prop :=
  let '(x, y, a) := c in
  rx r <= x < rx r + rw r /\ ry r <= y < ry r + rh r /\ rz r <= a < rz r + ra r.
Definition sized (r : region) : Prop := 0 <= rw r /\ 0 <= rh r /\ 0 <= ra r.
