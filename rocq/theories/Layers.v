(** Model of the costmap layer stack and of the costmap node's callbacks
    (/repo/costmap_cspace/include/costmap_cspace/costmap_3d_layer/base.h:251-441,
     output.h, unknown_handle.h, stop_propagation.h, /repo/costmap_cspace/src/costmap_3d.cpp:59-130).

    Simplifications.  Message headers are reduced to the time stamp of the update region and to
    "is the frame the map's frame".  Metric placement of a message is given in cells: the offset in
    [grid] (footprint.h:293-296, the same expression as base.h:353-358) and the size [o_w], [o_h]
    (base.h:360-363).  The template of a layer does not depend on the base map (setMapMetaData
    is called again for every base map; equal resolutions give equal templates). *)
From Verif Require Import Common CSpace Inflate.
Local Open Scope Z_scope.

(** An overlay message: nav_msgs/OccupancyGrid, its size in map cells, stamp, frame_id equality. *)
Record omsg := Omsg { o_grid : grid; o_w : Z; o_h : Z; o_stamp : Z; o_frame : bool }.

(** Layer classes: Footprint/Plain, UnknownHandle, StopPropagation, static output, update output. *)
Inductive kind := Foot (k : fcfg) | Unknown (c : Z) | StopProp | StaticOut | UpdateOut.

(** Costmap3dLayerBase, base.h:256-268: map_overlay_, region_, region_prev_, map_updated_;
    [l_oprev] is the member region_prev_ of Costmap3dLayerOutput (output.h:54), which hides the base's. *)
Record layer := Layer { l_kind : kind; l_over : cmap; l_region : region; l_prev : region; l_oprev : region; l_msg : option omsg }.

(** costmap_cspace_msgs/CSpace3DUpdate. *)
Record update := Update { u_x : Z; u_y : Z; u_yaw : Z; u_w : Z; u_h : Z; u_a : Z; u_data : list Z }.
(** What the node publishes: costmap (cbUpdateStatic) and costmap_update (cbUpdate), costmap_3d.cpp:105-130. *)
Inductive pub := PubMap (m : cmap) | PubUpdate (u : update).

(** generateUpdateMsg, output.h:111-162: message, new region_prev_.  [m] is map_. *)
Definition gen_update (m : cmap) (reg oprev : region) : outcome (update * region) :=
  let r := normalize reg (cw m) (ch m) in
  let g := normalize (merge r oprev) (cw m) (ch m) in
  if (rx g + rw g) * (ry g + rh g) <=? cw m * ch m then
    if (rw r =? 0) || (rh r =? 0) then Ok (Update (rx g) (ry g) (rz g) 0 0 (ra g) [], r)
    else
      let blank := repeat 0 (Z.to_nat (rw g * rh g * ra g)) in
      do data <-
        (if (rx g =? 0) && (ry g =? 0) && (rz g =? 0) && (rw g =? cw m) && (rh g =? ch m) && (ra g =? ca m)
         then blit blank 0 (cdata m) (address m 0 0 0) (Z.of_nat (length blank))
         else foldM (fun d k => foldM (fun d j =>
                  blit d ((k * rh g + j) * rw g) (cdata m) (address m (rx g) (ry g + j) (rz g + k)) (rw g))
                (range_excl 0 (rh g)) d) (range_excl 0 (ra g)) blank);
      Ok (Update (rx g) (ry g) (rz g) (rw g) (rh g) (ra g) data, r)
  else UB.

(** Loop of Costmap3dLayerUnknownHandle::updateChain, unknown_handle.h:76-100. *)
Definition handle_unknown (c : Z) (r : region) (m : cmap) : outcome cmap :=
  foldM (fun m a => foldM (fun m y => foldM (fun m x =>
        do v <- getc m x y a; if v <? 0 then setc m x y a c else Ok m)
      (range_excl (rx r) (Z.min (rx r + rw r) (cw m))) m)
    (range_excl (ry r) (Z.min (ry r + rh r) (ch m))) m)
  (range_excl (rz r) (Z.min (rz r + ra r) (ca m))) m.

(** The chain update of one layer, base.h:402-425 with the layers' updateChain:
    new layer, region handed to the child, "output still wanted", publications.
    [parent] is map_ (shared with the parent's map_overlay_, base.h:293). *)
Definition entry (parent : cmap) (r : region) (out : bool) (l : layer) : outcome (layer * region * bool * list pub) :=
  let reg := normalize (merge (l_region l) r) (cw parent) (ch parent) in
  do b <- bitblt (merge reg (l_prev l)) (l_over l) parent;
  let ov := snd b in
  let upd ov reg oprev := Layer (l_kind l) ov reg reg oprev (l_msg l) in
  match l_kind l with
  | Foot k =>
      do ov <- (match l_msg l with
                | Some m => if o_frame m then generate k (o_grid m) ov else Ok ov
                | None => Ok ov end);
      Ok (upd ov reg (l_oprev l), reg, out, [])
  | Unknown c => do ov <- handle_unknown c reg ov; Ok (upd ov reg (l_oprev l), reg, out, [])
  | StopProp =>
      let full := Region 0 0 0 (cw parent) (ch parent) (ca parent) 0 in
      Ok (Layer (l_kind l) (Cmap (cw ov) (ch ov) (ca ov) (map (fun _ => -1) (cdata ov))) full reg (l_oprev l) (l_msg l),
          full, out, [])
  | StaticOut => Ok (upd ov reg (l_oprev l), reg, false, if out then [PubMap parent] else [])
  | UpdateOut =>
      do u <- gen_update parent reg (l_oprev l);
      Ok (Layer (l_kind l) ov empty_region reg (snd u) (l_msg l), empty_region, false,
          if out then [PubUpdate (fst u)] else [])
  end.

(** updateChainEntry down the chain, base.h:427-431. *)
Fixpoint chain (parent : cmap) (r : region) (out : bool) (ls : list layer) : outcome (list layer * list pub) :=
  match ls with
  | [] => Ok ([], [])
  | l :: ls' =>
      do e <- entry parent r out l;
      let '(l', r', out', p) := e in
      do c <- chain (l_over l') r' out' ls';
      Ok (l' :: fst c, p ++ snd c)
  end.

(** processMapOverlay on the layer with index [i] (0 = first layer after the root), base.h:346-377. *)
Fixpoint overlay_at (parent : cmap) (i : nat) (m : omsg) (ls : list layer) : outcome (list layer * list pub) :=
  match ls, i with
  | [], _ => UB
  | l :: ls', O =>
      let r := Region (gox (o_grid m)) (goy (o_grid m)) 0 (o_w m) (o_h m) (ca parent) (o_stamp m) in
      chain parent r true (Layer (l_kind l) (l_over l) r (l_prev l) (l_oprev l) (Some m) :: ls')
  | l :: ls', S i' =>
      do c <- overlay_at (l_over l) i' m ls';
      Ok (l :: fst c, snd c)
  end.

(** The stack: root layer configuration, the root's map_overlay_ (= map_, base.h:336), its region_,
    the other layers. *)
Record stack := Stack { s_root : fcfg; s_ang : Z; s_base : cmap; s_rregion : region; s_layers : list layer }.

(** A base map message: width, height, data, stamp. *)
Record bmsg := Bmsg { b_w : Z; b_h : Z; b_data : list Z; b_stamp : Z }.

(** setBaseMap, base.h:299-345, setBaseMapChain, 434-440. *)
Definition set_base (b : bmsg) (s : stack) : outcome (stack * list pub) :=
  if (0 <? s_ang s) && (b_w b * b_h b <=? Z.of_nat (length (b_data b))) then
    do m <- base_map (s_root s) (b_w b) (b_h b) (s_ang s) (b_data b);
    let ls := map (fun l => Layer (l_kind l) m (l_region l) (l_prev l) (l_oprev l) (l_msg l)) (s_layers s) in
    let full := Region 0 0 0 (b_w b) (b_h b) (s_ang s) (b_stamp b) in
    let reg := normalize (merge (s_rregion s) full) (b_w b) (b_h b) in
    do c <- chain m reg true ls;
    Ok (Stack (s_root s) (s_ang s) m reg (fst c), snd c)
  else UB.

(** The costmap node: stack and map_buffer_, costmap_3d.cpp:40-62. *)
Record node := Node { n_stack : stack; n_buf : list (nat * omsg) }.
Inductive event := EvBase (b : bmsg) | EvOverlay (i : nat) (m : omsg).

(** cbMapOverlay, costmap_3d.cpp:87-104: buffered while the map is empty.  (All maps of the stack have the same size.) *)
Definition cb_overlay (i : nat) (m : omsg) (n : node) : outcome (node * list pub) :=
  let s := n_stack n in
  if (cw (s_base s) <? 1) || (ch (s_base s) <? 1) then Ok (Node s (n_buf n ++ [(i, m)]), [])
  else
    do c <- overlay_at (s_base s) i m (s_layers s);
    Ok (Node (Stack (s_root s) (s_ang s) (s_base s) (s_rregion s) (fst c)) (n_buf n), snd c).

(** The replay loop of cbMap, 79-85.  If the new map is empty too, cbMapOverlay appends to
    map_buffer_ while the range-based for loop iterates over it: undefined behaviour. *)
Fixpoint replay (q : list (nat * omsg)) (n : node) : outcome (node * list pub) :=
  match q with
  | [] => Ok (n, [])
  | (i, m) :: q' =>
      if (cw (s_base (n_stack n)) <? 1) || (ch (s_base (n_stack n)) <? 1) then UB
      else
        do a <- cb_overlay i m n;
        do b <- replay q' (fst a);
        Ok (fst b, snd a ++ snd b)
  end.
(** cbMap, 64-86.  (The std::runtime_error of line 71 is constructed, not thrown; set_base then asserts.) *)
Definition cb_map (b : bmsg) (n : node) : outcome (node * list pub) :=
  do c <- set_base b (n_stack n);
  do d <- replay (n_buf n) (Node (fst c) (n_buf n));
  Ok (Node (n_stack (fst d)) [], snd c ++ snd d).

Definition step (n : node) (e : event) : outcome (node * list pub) :=
  match e with EvBase b => cb_map b n | EvOverlay i m => cb_overlay i m n end.
Fixpoint run (n : node) (es : list event) : outcome (node * list pub) :=
  match es with
  | [] => Ok (n, [])
  | e :: es' => do a <- step n e; do b <- run (fst a) es'; Ok (fst b, snd a ++ snd b)
  end.

(** Constructor: addRootLayer/addLayer, costmap_3d.h:50-101; all maps default (empty). *)
Definition new_layer (k : kind) : layer := Layer k (Cmap 0 0 0 []) empty_region empty_region empty_region None.
Definition new_node (root : fcfg) (ang : Z) (ks : list kind) : node :=
  Node (Stack root ang (Cmap 0 0 0 []) empty_region (map new_layer ks)) [].
