(** Model of drawing an occupancy grid into the 3-D costmap with footprint
    inflation
    (/repo/costmap_cspace/include/costmap_cspace/costmap_3d_layer/footprint.h).

    Simplifications.  The template is a function (CSpace3Cache addressing is in
    CSpace.v); reading it outside [-range_max, range_max] is [UB].  Conversion
    from message to map coordinates (lround of position differences and of
    index times resolution ratio) is given by the offsets [gox], [goy] and the
    function [gsc].  The message is assumed to carry width*height cells (a
    nav_msgs/OccupancyGrid invariant) where the theorems need it. *)
From Verif Require Import Common CSpace.
Local Open Scope Z_scope.

(** nav_msgs/OccupancyGrid with its placement in the map.
    [gox goy]: footprint.h:293-296; [gsc i]: lround(i * resolution_scale);
    [gsame]: msg->info.resolution == map->info.linear_resolution (289);
    [gup]: ceil(resolution_scale), 254. *)
Record grid := Grid { gw : Z; gh : Z; gdata : list Z; gox : Z; goy : Z; gsc : Z -> Z; gsame : bool; gup : Z }.

(** Layer configuration: template, range_max_, keep_unknown_, and whether the
    layer clears the travelable area (OVERWRITE mode and not the root, 229). *)
Record fcfg := Fcfg { f_tmpl : Z -> Z -> Z -> Z; f_r : Z; f_keep : bool; f_clear : bool }.

Section Draw.
  Variable k : fcfg.
  Variable g : grid.

  (** cs_template_.e, with the offsets of the template range checked. *)
  Definition te (x y yaw : Z) : outcome Z :=
    if in_rangeb (- f_r k) x (f_r k + 1) && in_rangeb (- f_r k) y (f_r k + 1)
    then Ok (f_tmpl k x y yaw) else UB.
  (** msg->data read through a raw pointer, footprint.h:281-288. *)
  Definition msg_at (i : Z) : outcome Z :=
    if in_rangeb 0 i (Z.of_nat (length (gdata g))) then Ok (nth (Z.to_nat i) (gdata g) 0) else UB.

  (** getMaskedRange, 277-288; each bound is 0 at the border of the message or
      if the neighbour's cost is not lower. *)
  Definition bound_of (border : bool) (nb self full : Z) : outcome Z :=
    if border then Ok 0
    else do a <- msg_at nb; do b <- msg_at self; Ok (if b <=? a then 0 else full).
  Definition masked_range (pos : Z) : outcome (Z * Z * Z * Z) :=
    let gx := pos mod gw g in let gy := pos / gw g in
    do x0 <- bound_of (gx =? 0) (pos - 1) pos (- f_r k);
    do x1 <- bound_of (gx =? gw g - 1) (pos + 1) pos (f_r k);
    do y0 <- bound_of (gy =? 0) (pos - gw g) pos (- f_r k);
    do y1 <- bound_of (gy =? gh g - 1) (pos + gw g) pos (f_r k);
    Ok (x0, x1, y0, y1).
  Definition get_range (pos : Z) : outcome (Z * Z * Z * Z) :=
    if gsame g then masked_range pos else Ok (- f_r k, f_r k, - f_r k, f_r k).

  (** Map coordinates of message cell [i], 325-326. *)
  Definition gposx (i : Z) : Z := gsc g (i mod gw g) + gox g.
  Definition gposy (i : Z) : Z := gsc g (i / gw g) + goy g.
  Definition off_map (m : cmap) (x y : Z) : bool := negb (in_rangeb 0 x (cw m) && in_rangeb 0 y (ch m)).

  (** Inner statement, 346-349. *)
  Definition raise_cell (m : cmap) (x y yaw c : Z) : outcome cmap :=
    do v <- getc m x y yaw;
    if (0 <? c) && (v <? c) then setc m x y yaw c else Ok m.

  (** Body of the drawing loop, 317-351, for message cell [i]. *)
  Definition draw_one (yaw : Z) (m : cmap) (i : Z) : outcome cmap :=
    do val <- msg_at i;
    if val <? 0 then Ok m
    else
      let gx := gposx i in let gy := gposy i in
      if off_map m gx gy then Ok m
      else if val =? 0 then
        do v <- getc m gx gy yaw;
        if v <? 0 then setc m gx gy yaw 0 else Ok m
      else
        do r <- get_range i;
        let '(x0, x1, y0, y1) := r in
        foldM (fun m y =>
            foldM (fun m x =>
                do t <- te (x - gx) (y - gy) yaw;
                raise_cell m x y yaw (c_quot (t * val) 100))
              (range_incl (Z.max (gx + x0) 0) (Z.min (gx + x1) (cw m - 1))) m)
          (range_incl (Z.max (gy + y0) 0) (Z.min (gy + y1) (ch m - 1))) m.

  Definition cells : list Z := range_excl 0 (Z.of_nat (length (gdata g))).

  (** unknown_buf_, 298-314.  Entries of cells outside the map are left stale by
      the code; they are never used (359-361) and are [false] here. *)
  Definition unknown_flag (m : cmap) (yaw i : Z) : outcome bool :=
    if off_map m (gposx i) (gposy i) then Ok false
    else do val <- msg_at i; do v <- getc m (gposx i) (gposy i) yaw; Ok ((val <? 0) && (v <? 0)).
  Fixpoint flags (m : cmap) (yaw : Z) (l : list Z) : outcome (list (Z * bool)) :=
    match l with
    | [] => Ok []
    | i :: l' => do b <- unknown_flag m yaw i; do r <- flags m yaw l'; Ok ((i, b) :: r)
    end.

  (** generateSpecifiedCSpace, 274-366. *)
  Definition generate_yaw (m : cmap) (yaw : Z) : outcome cmap :=
    do buf <- (if f_keep k then flags m yaw cells else Ok []);
    do m <- foldM (draw_one yaw) cells m;
    foldM (fun m ib => let '(i, b) := ib in
        if (b : bool) then
          if off_map m (gposx i) (gposy i) then Ok m else setc m (gposx i) (gposy i) yaw (-1)
        else Ok m)
      buf m.

  (** clearTravelableArea, 224-272, for message cell [i].  The code compares the
      scaled coordinate with the message size in cells. *)
  Definition clear_one (yaw : Z) (m : cmap) (i : Z) : outcome cmap :=
    do val <- msg_at i;
    if val <? 0 then Ok m
    else
      let x := gsc g (i mod gw g) in
      let y := gsc g (i / gw g) in
      if (x <? f_r k) || (gw g - f_r k <=? x) then Ok m
      else if (y <? f_r k) || (gh g - f_r k <=? y) then Ok m
      else
        foldM (fun m yp =>
            let y2 := y + goy g + yp in
            if in_rangeb 0 y2 (ch m) then
              foldM (fun m xp =>
                  let x2 := x + gox g + xp in
                  if in_rangeb 0 x2 (cw m) then setc m x2 y2 yaw (-1) else Ok m)
                (range_excl 0 (gup g)) m
            else Ok m)
          (range_excl 0 (gup g)) m.
  Definition clear_area (m : cmap) : outcome cmap :=
    if f_clear k then foldM (fun m yaw => foldM (clear_one yaw) cells m) (range_excl 0 (ca m)) m else Ok m.

  (** generateCSpace, 210-221. *)
  Definition generate (m : cmap) : outcome cmap :=
    do m <- clear_area m; foldM generate_yaw (range_excl 0 (ca m)) m.
End Draw.

(** The part of setBaseMap that fills map_ (base.h:299-342): all unknown, the base map
    drawn with offset 0 and equal resolution, unknown where the base map is. *)
Definition base_grid (w h : Z) (data : list Z) : grid := Grid w h data 0 0 (fun i => i) true 1.
Definition base_map (k : fcfg) (w h a : Z) (data : list Z) : outcome cmap :=
  let g := base_grid w h data in
  do m <- generate (Fcfg (f_tmpl k) (f_r k) (f_keep k) false) g (Cmap w h a (repeat (-1) (Z.to_nat (w * h * a))));
  foldM (fun m yaw => foldM (fun m i =>
       do v <- msg_at g i; if v <? 0 then setc m (i mod w) (i / w) yaw (-1) else Ok m)
     (range_excl 0 (w * h)) m) (range_excl 0 a) m.
