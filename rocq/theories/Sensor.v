(** Model of the nodes that turn sensor data or a large map into a local occupancy grid
    (/repo/costmap_cspace/src/pointcloud2_to_map.cpp, laserscan_to_map.cpp, largemap_to_map.cpp).
    Coordinates are rationals and arithmetic on them is exact. *)
From Coq Require Import QArith Qround Qabs.
From Verif Require Import Common CSpace MotionCache.
Local Open Scope Z_scope.

(** Conversion of a double to int: truncation; undefined outside the range of int. *)
Definition trunc (q : Q) : Z := Z.quot (Qnum q) (Zpos (Qden q)).
Definition to_int (q : Q) : outcome Z :=
  let v := trunc q in if (- 2 ^ 31 <=? v) && (v <? 2 ^ 31) then Ok v else UB.
(** int to unsigned int. *)
Definition to_unsigned (v : Z) : Z := v mod 2 ^ 32.

(** Local window: resolution, width = height in cells, lower left corner, height limits, robot height. *)
Record window := Window { w_res : Q; w_n : Z; w_ox : Q; w_oy : Q; w_zmin : Q; w_zmax : Q; w_rz : Q }.

(** Origin of the window for robot position [pos], pointcloud2_to_map.cpp:146-149, laserscan_to_map.cpp:137-140,
    largemap_to_map.cpp:146-149 (one axis). *)
Definition origin (res : Q) (n : Z) (pos : Q) : outcome Q :=
  do v <- to_int (pos / res)%Q; Ok (inject_Z v * res - inject_Z n * res * (1 # 2))%Q.

Record point := Point { p_x : Q; p_y : Q; p_z : Q }.

(** Body of the point loop, pointcloud2_to_map.cpp:172-180. *)
Definition mark (w : window) (data : list Z) (p : point) : outcome (list Z) :=
  if negb (Qle_bool (w_zmin w) (p_z p - w_rz w)) || negb (Qle_bool (p_z p - w_rz w) (w_zmax w)) then Ok data
  else
    do x <- to_int ((p_x p - w_ox w) / w_res w)%Q;
    do y <- to_int ((p_y p - w_oy w) / w_res w)%Q;
    let x := to_unsigned x in let y := to_unsigned y in
    if (w_n w <=? x) || (w_n w <=? y) then Ok data
    else let a := to_unsigned (x + y * w_n w) in
      if a <? Z.of_nat (length data) then Ok (replace_nth (Z.to_nat a) 100 data) else UB.

(** Lines 159-183: clear the map, then all clouds of both accumulators. *)
Definition draw_clouds (w : window) (clouds : list (list point)) : outcome (list Z) :=
  foldM (fun d c => foldM (mark w) c d) clouds (repeat 0 (Z.to_nat (w_n w * w_n w))).

(** laserscan_to_map.cpp:153-174: [itr_z] is not advanced, so all points of a cloud are tested with the height of its first. *)
Definition first_z (c : list point) : list point :=
  match c with [] => [] | p0 :: _ => map (fun p => Point (p_x p) (p_y p) (p_z p0)) c end.
Definition draw_scans (w : window) (scans : list (list point)) : outcome (list Z) := draw_clouds w (map first_z scans).

(** Large map: width, height, lower left corner, data. *)
Record large := Large { g_w : Z; g_h : Z; g_ox : Q; g_oy : Q; g_data : list Z }.
Record options := Options { opt_round : bool; opt_surrounded : bool; opt_occlusion : bool }.

(** One cell, largemap_to_map.cpp:161-193. *)
Definition crop_cell (o : options) (n : Z) (g : large) (gx gy lx ly : Z) : outcome Z :=
  let half := (n # 2)%Q in
  let rsq := ((inject_Z lx - half) * (inject_Z lx - half) + (inject_Z ly - half) * (inject_Z ly - half))%Q in
  let x := gx + lx in let y := gy + ly in
  if opt_surrounded o && Qle_bool rsq (half * half) && Qle_bool ((half - 2) * (half - 2)) rsq then Ok 100
  else if opt_round o && negb (Qle_bool rsq (half * half)) then Ok (-1)
  else if (x <? 0) || (y <? 0) || (g_w g <=? x) || (g_h g <=? y) then Ok (-1)
  else if y * g_w g + x <? Z.of_nat (length (g_data g)) then Ok (nth (Z.to_nat (y * g_w g + x)) (g_data g) (-1)) else UB.

(** The window of [n] x [n] cells, 155-195: gx, gy and the data; each address is written once. *)
Definition offset (res : Q) (lo go : Q) : Z := lround ((lo - go) / res)%Q.
Definition crop (o : options) (res : Q) (n : Z) (g : large) (wx wy : Q) : outcome (list Z) :=
  let gx := offset res wx (g_ox g) in let gy := offset res wy (g_oy g) in
  foldM (fun d addr => do v <- crop_cell o n g gx gy (addr mod n) (addr / n); Ok (d ++ [v])) (range_excl 0 (n * n)) [].

(** simulate_occlusion, 196-208.  [table] is occlusion_table_ (84-100); its entries are addresses of the map (98). *)
Definition occlude (table : Z -> list Z) (n : Z) (data : list Z) : outcome (list Z) :=
  foldM (fun d addr =>
    if nth (Z.to_nat addr) d 0 =? 100
    then foldM (fun d a => if (0 <=? a) && (a <? Z.of_nat (length d)) then Ok (replace_nth (Z.to_nat a) (-1) d) else UB) (table addr) d
    else Ok d) (range_excl 0 (n * n)) data.
Definition local_map (o : options) (table : Z -> list Z) (res : Q) (n : Z) (g : large) (wx wy : Q) : outcome (list Z) :=
  do d <- crop o res n g wx wy; if opt_occlusion o then occlude table n d else Ok d.
