(** What the planner's costmap should be after a history of maps and updates (specification for C13). *)
From Verif Require Import Common DistMap Overlay.
Local Open Scope Z_scope.

(** The messages: dimensions agree with the data, and nothing overflows 31 bits. *)
Definition good_map (m : mmsg) : Prop :=
  0 < m_w m /\ 0 < m_h m /\ 0 <= m_a m /\ m_w m * m_h m * m_a m < 2 ^ 31 /\ m_w m < 2 ^ 31 /\ m_h m < 2 ^ 31 /\ m_a m < 2 ^ 31 /\
  Z.of_nat (length (m_data m)) = m_w m * m_h m * m_a m.
Definition good_update (u : umsg) : Prop :=
  0 <= u_x u /\ 0 <= u_y u /\ 0 <= u_yaw u < 2 ^ 31 /\ 0 <= u_w u /\ 0 <= u_h u /\ 0 <= u_a u < 2 ^ 31 /\
  u_x u + u_w u < 2 ^ 31 /\ u_y u + u_h u < 2 ^ 31 /\ Z.of_nat (length (u_data u)) = u_w u * u_h u * u_a u.
Definition good_event (e : oevent) : Prop := match e with EMap m => good_map m | EUpdate u => good_update u end.

(** An update lies on a map. *)
Definition fits (m : mmsg) (u : umsg) : bool :=
  (u_x u + u_w u <=? m_w m) && (u_y u + u_h u <=? m_h m) && (u_a u <=? m_a m).
(** The angular window of the update also lies on the map (not checked by the code). *)
Definition fits_yaw (m : mmsg) (u : umsg) : Prop := u_yaw u + u_a u <= m_a m.

(** Which map and which update are in force, and which update waits for a larger map. *)
Definition track_step (s : option (mmsg * option umsg * option umsg)) (e : oevent) : option (mmsg * option umsg * option umsg) :=
  match e, s with
  | EMap m, Some (_, _, Some u) => if (m_stamp m <=? u_stamp u) && fits m u then Some (m, Some u, None) else Some (m, None, None)
  | EMap m, _ => Some (m, None, None)
  | EUpdate u, Some (m, cur, _) => if fits m u then Some (m, Some u, None) else Some (m, cur, Some u)
  | EUpdate _, None => None
  end.
Definition track (es : list oevent) : option (mmsg * option umsg * option umsg) := fold_left track_step es None.

(** The cost written at a cell of a map message. *)
Definition map_cost (unknown : Z) (m : mmsg) (c : cell3) : Z :=
  let v := nth (Z.to_nat ((snd c * m_h m + snd (fst c)) * m_w m + fst (fst c))) (m_data m) 0 in
  if v <? 0 then i8 unknown else v.
(** The cost an update gives a cell of the map, if the cell is in its area. *)
Definition update_cost (u : umsg) (c : cell3) : option Z :=
  let x := fst (fst c) - u_x u in let y := snd (fst c) - u_y u in let t := snd c - u_yaw u in
  if (0 <=? x) && (x <? u_w u) && (0 <=? y) && (y <? u_h u) && (0 <=? t) && (t <? u_a u)
  then Some (nth (Z.to_nat ((t * u_h u + y) * u_w u + x)) (u_data u) 0) else None.
Definition laid_over (overwrite : bool) (base : Z) (c : option Z) : Z :=
  match c with
  | None => base
  | Some d => if overwrite then (if 0 <=? d then d else base) else Z.max base d
  end.
(** The lowest cost over all orientations, 100 if there are none. *)
Definition lowest (f : Z -> Z) (n : Z) : Z := fold_left Z.min (map f (range_excl 0 n)) 100.

(** The costs in force, by cell and orientation and by cell. *)
Definition cost_in_force (unknown : Z) (overwrite : bool) (m : mmsg) (cur : option umsg) (c : cell3) : Z :=
  laid_over overwrite (map_cost unknown m c) match cur with Some u => update_cost u c | None => None end.
Definition rough_in_force (unknown : Z) (m : mmsg) (cur : option umsg) (c : cell) : Z :=
  let base := lowest (fun t => map_cost unknown m (c, t)) (m_a m) in
  match cur with
  | None => base
  | Some u =>
      let x := fst c - u_x u in let y := snd c - u_y u in
      if (0 <=? x) && (x <? u_w u) && (0 <=? y) && (y <? u_h u)
      then Z.max base (lowest (fun t => nth (Z.to_nat ((t * u_h u + y) * u_w u + x)) (u_data u) 0) (u_a u)) else base
  end.
