(** Model of map_organizer/src/pointcloud_to_maps.cpp:72-349 cbPoints: floor maps from a point cloud.
    Points are given by their grid cells ([int(p.x / grid)], lines 107-109, 159-161).  Areas (number of cells times the cell area, stored as float) are compared
    as numbers of cells; the thresholds computed in double are the parameters [thresh], [above] and [too_small].
    Not modelled: 32-bit overflow for maps of 2^31 cells and more, points outside the range of [int] times the grid, the progress output. *)
From Verif Require Import Common.
Local Open Scope Z_scope.

Record pt := Pt { cx : Z; cy : Z; cz : Z }.
Definition key : Type := (Z * Z)%type.
Definition keqb (a b : key) : bool := (fst a =? fst b) && (snd a =? snd b).

(** pointcloud_to_maps.cpp:77-98: parameters.  [thresh hist_max] is [min_points] (148), [above max n] is the area filter (195, 203: [n] cells are
    more than the rate times the largest runnable area), [too_small n] is the minimum floor area (284), [height_of i] is [int((i * grid) / grid)] (232, 233, 283). *)
Record params := Params { robot_height : Z; floor_height : Z; floor_tolerance : Z; thresh : Z -> Z; above : Z -> Z -> bool; too_small : Z -> bool; height_of : Z -> Z }.

Definition INT_MAX : Z := 2 ^ 31 - 1.
Definition INT_MIN : Z := - 2 ^ 31.

(** pointcloud_to_maps.cpp:101-121: bounds of the cloud; the maxima start from 0. *)
Definition lower (f : pt -> Z) (pts : list pt) : Z := fold_left (fun m p => if f p <? m then f p else m) pts INT_MAX.
Definition upper (f : pt -> Z) (pts : list pt) : Z := fold_left (fun m p => if m <? f p then f p else m) pts 0.
(** pointcloud_to_maps.cpp:122-124: number of points per height. *)
Definition hist (pts : list pt) (h : Z) : Z := Z.of_nat (length (filter (fun p => cz p =? h) pts)).
(** pointcloud_to_maps.cpp:143-146. *)
Definition hist_max (pts : list pt) : Z := fold_left (fun m p => if m <? hist pts (cz p) then hist pts (cz p) else m) pts INT_MIN.

(** [std::map<std::pair<int, int>, char>] as an association list with one entry per key. *)
Fixpoint find (k : key) (l : list (key * Z)) : option Z :=
  match l with [] => None | (k', v) :: t => if keqb k k' then Some v else find k t end.
Fixpoint put (k : key) (v : Z) (l : list (key * Z)) : list (key * Z) :=
  match l with [] => [(k, v)] | (k', v') :: t => if keqb k k' then (k', v) :: t else (k', v') :: put k v t end.
(** pointcloud_to_maps.cpp:157-175: one point seen from the floor at height [i]. *)
Definition see (P : params) (i : Z) (l : list (key * Z)) (p : pt) : list (key * Z) :=
  let v := (cx p, cy p) in
  if Z.abs (i - cz p) <=? floor_height P then match find v l with None => put v 0 l | Some _ => l end
  else if (i + floor_height P + floor_tolerance P <? cz p) && (cz p <=? i + robot_height P) then put v 1 l
  else l.
Definition floor (P : params) (pts : list pt) (i : Z) : list (key * Z) := fold_left (see P i) pts [].
(** pointcloud_to_maps.cpp:177-183: number of free cells. *)
Definition count0 (l : list (key * Z)) : Z := Z.of_nat (length (filter (fun m => snd m =? 0) l)).
Definition enough (P : params) (pts : list pt) (i : Z) : bool := thresh P (hist_max pts) <? hist pts i.
(** pointcloud_to_maps.cpp:128-131, 152-194: [floor_runnable_area]; heights with too few points have no entry and count as 0. *)
Definition runnable (P : params) (pts : list pt) (i : Z) : Z := if enough P pts i then count0 (floor P pts i) else 0.
Definition heights (pts : list pt) : list Z := range_incl (lower cz pts) (upper cz pts).
(** pointcloud_to_maps.cpp:151, 187-188. *)
Definition runnable_max (P : params) (pts : list pt) : Z := fold_left (fun m i => if m <? runnable P pts i then runnable P pts i else m) (heights pts) 0.

(** An occupancy grid: its height and the cells by address. *)
Definition grid_data : Type := Z -> Z.
Definition set_cell (n : Z) (d : grid_data) (a v : Z) : outcome grid_data :=
  if (0 <=? a) && (a <? n) then Ok (fun b => if b =? a then v else d b) else UB.
Definition width (pts : list pt) : Z := upper cx pts - lower cx pts + 1.
Definition height (pts : list pt) : Z := upper cy pts - lower cy pts + 1.
Definition size (pts : list pt) : Z := width pts * height pts.
Definition address (pts : list pt) (k : key) : Z := (fst k - lower cx pts) + (snd k - lower cy pts) * width pts.

(** pointcloud_to_maps.cpp:205-222. *)
Definition draw_cell (pts : list pt) (d : grid_data) (m : key * Z) : outcome grid_data :=
  if snd m =? 0 then set_cell (size pts) d (address pts (fst m)) 0
  else if snd m =? 1 then set_cell (size pts) d (address pts (fst m)) 100
  else Ok d.
Definition draw (P : params) (pts : list pt) (i : Z) : outcome grid_data := foldM (draw_cell pts) (floor P pts i) (fun _ => -1).
(** pointcloud_to_maps.cpp:199-203: floors are the local maxima of the runnable area. *)
Definition is_floor (P : params) (pts : list pt) (i : Z) : bool :=
  enough P pts i &&
  ((i =? lower cz pts) || (runnable P pts (i - 1) <=? runnable P pts i)) &&
  ((i =? upper cz pts) || (runnable P pts (i + 1) <=? runnable P pts i)) &&
  above P (runnable_max P pts) (runnable P pts i).
(** pointcloud_to_maps.cpp:196-227. *)
Definition candidates (P : params) (pts : list pt) : outcome (list (Z * grid_data)) :=
  foldM (fun acc i => if is_floor P pts i then do d <- draw P pts i; Ok (acc ++ [(i, d)]) else Ok acc) (heights pts) [].

(** pointcloud_to_maps.cpp:237-248: one cell of two adjacent floors, (upper, lower). *)
Definition merge_upper (u l : grid_data) : grid_data := fun a => if u a =? 0 then -1 else u a.
Definition merge_lower (u l : grid_data) : grid_data := fun a => if negb (l a =? 0) && (u a =? 0) then 0 else l a.
(** pointcloud_to_maps.cpp:249-258. *)
Definition count_free (n : Z) (d : grid_data) : Z := Z.of_nat (length (filter (fun a => d a =? 0) (range_excl 0 n))).
Definition set_area (A : Z -> Z) (h v : Z) : Z -> Z := fun x => if x =? h then v else A x.
(** pointcloud_to_maps.cpp:229-261: from the highest floor down; [prev] is the floor above.  Returns the floors from the highest down and the areas. *)
Fixpoint merge (P : params) (n : Z) (prev : Z * grid_data) (rest : list (Z * grid_data)) (A : Z -> Z) : list (Z * grid_data) * (Z -> Z) :=
  match rest with
  | [] => ([prev], A)
  | cur :: t =>
      let adjacent := fst prev - fst cur <? 2 in
      let prev' := if adjacent then (fst prev, merge_upper (snd prev) (snd cur)) else prev in
      let cur' := if adjacent then (fst cur, merge_lower (snd prev) (snd cur)) else cur in
      let A' := if adjacent then set_area (set_area A (height_of P (fst cur)) (count_free n (snd cur'))) (height_of P (fst prev)) (count_free n (snd prev')) else A in
      let '(l, A'') := merge P n cur' t A' in
      (prev' :: l, A'')
  end.
Definition merge_floors (P : params) (pts : list pt) (maps : list (Z * grid_data)) : list (Z * grid_data) * (Z -> Z) :=
  match rev maps with
  | [] => ([], runnable P pts)
  | top :: rest => let '(l, A) := merge P (size pts) top rest (runnable P pts) in (rev l, A)
  end.

(** pointcloud_to_maps.cpp:291-338: widening the free space.  Addresses are computed in unsigned 32-bit arithmetic. *)
Definition u32 (z : Z) : Z := z mod 2 ^ 32.
Definition window (r : Z) : list key := filter (fun k => fst k * fst k + snd k * snd k <=? r * r) (list_prod (range_incl (- r) r) (range_incl (- r) r)).
Definition neighbour (w h a : Z) (k : key) : option Z :=
  let x := u32 (a mod w + fst k) in
  let y := u32 (a / w + snd k) in
  if (w <=? x) || (h <=? y) then None else Some (x + y * w).
Definition get_cell (n : Z) (d : grid_data) (a : Z) : outcome Z := if (0 <=? a) && (a <? n) then Ok (d a) else UB.
(** pointcloud_to_maps.cpp:297-317. *)
Definition narrow (w h : Z) (cp : grid_data) (a : Z) (fw : Z) (k : key) : outcome Z :=
  match neighbour w h a k with
  | None => Ok fw
  | Some b =>
      do c <- get_cell (w * h) cp b;
      let sq := fst k * fst k + snd k * snd k in
      Ok (if (c =? 100) && (sq <? fw * fw) then Z.sqrt sq else fw)
  end.
(** pointcloud_to_maps.cpp:318-336. *)
Definition widen_cell (w h : Z) (cp : grid_data) (a : Z) (d : grid_data) (k : key) : outcome grid_data :=
  match neighbour w h a k with
  | None => Ok d
  | Some b =>
      do c <- get_cell (w * h) cp b;
      if c =? 100 then Ok d else set_cell (w * h) d b 0
  end.
Definition widen_at (w h : Z) (cp : grid_data) (d : grid_data) (a : Z) : outcome grid_data :=
  do c <- get_cell (w * h) cp a;
  if c =? 0 then
    do fw <- foldM (narrow w h cp a) (window 6) 6;
    foldM (widen_cell w h cp a) (window (fw - 1)) d
  else Ok d.
Definition widen (w h : Z) (cp : grid_data) : outcome grid_data := foldM (widen_at w h cp) (range_excl 0 (w * h)) cp.

(** pointcloud_to_maps.cpp:279-348: the published floors with their heights. *)
Definition publish (P : params) (pts : list pt) (A : Z -> Z) (acc : list (Z * grid_data)) (m : Z * grid_data) : outcome (list (Z * grid_data)) :=
  if too_small P (A (height_of P (fst m))) then Ok acc
  else do d <- widen (width pts) (height pts) (snd m); Ok (acc ++ [(fst m, d)]).
Definition cbPoints (P : params) (pts : list pt) : outcome (list (Z * grid_data)) :=
  do maps <- candidates P pts;
  let '(l, A) := merge_floors P pts maps in
  foldM (publish P pts A) l [].
