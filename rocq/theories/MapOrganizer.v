(** Model of map_organizer/src/save_maps.cpp and select_map.cpp, and of the file-name
    handling of tie_maps.cpp. *)
From Coq Require Import String Ascii.
From Verif Require Import Common.
Local Open Scope Z_scope.

(** *** save_maps.cpp *)

(** Occupancy grid: width, height, row-major data (nav_msgs/OccupancyGrid). *)
Record ogrid := mkOG { og_w : Z; og_h : Z; og_data : list Z }.

Definition u32 (z : Z) : Z := z mod 2 ^ 32.

(** 102-116: the byte written for one cell. *)
Definition pixel (v : Z) : Z := if v =? 0 then 254 else if v =? 100 then 0 else 205.

(** 98-118: the image, one list of bytes per image row; [map->data[i]] with the
    unsigned 32-bit index of line 102.  The text header (96) carries width and height. *)
Definition save_row (m : ogrid) (y : Z) : outcome (list Z) :=
  foldM (fun acc x =>
    let i := u32 (x + u32 (u32 (og_h m - y - 1) * og_w m)) in
    match nth_error (og_data m) (Z.to_nat i) with
    | Some v => Ok (acc ++ [pixel v])
    | None => UB
    end) (range_excl 0 (og_w m)) [].
Definition save_map (m : ogrid) : outcome (list (list Z)) :=
  foldM (fun acc y => do r <- save_row m y; Ok (acc ++ [r])) (range_excl 0 (og_h m)) [].

(** 131: thresholds written to the yaml file, in thousandths ("negate: 0"). *)
Definition occupied_thresh : Z := 650.
Definition free_thresh : Z := 196.

(** 90, 120, 130: names of the files of one floor; [mapname] comes from -f. *)
Definition image_file (mapname floor : string) : string := (mapname ++ floor ++ ".pgm")%string.
Definition yaml_file (mapname floor : string) : string := (mapname ++ floor ++ ".yaml")%string.
(** 128: the image entry in the yaml file is the image's own (unshortened) name. *)
Definition yaml_image_entry (mapname floor : string) : string := image_file mapname floor.

(** dirname(3): everything before the last '/', or "." (absolute one-component paths
    and trailing slashes are not modelled). *)
Fixpoint rsplit (acc cur s : string) : string * string :=
  match s with
  | EmptyString => (acc, cur)
  | String c s' =>
      if Ascii.eqb c "/"%char
      then rsplit (if String.eqb acc "" then cur else acc ++ "/" ++ cur)%string EmptyString s'
      else rsplit acc (cur ++ String c EmptyString)%string s'
  end.
Definition dirname (s : string) : string :=
  let d := fst (rsplit EmptyString EmptyString s) in if String.eqb d "" then "."%string else d.

(** tie_maps.cpp 186-205: the image file opened for a yaml file and its image entry. *)
Definition loaded_image_file (yaml entry : string) : string :=
  match entry with
  | String c _ => if Ascii.eqb c "/"%char then entry else (dirname yaml ++ "/" ++ entry)%string
  | EmptyString => EmptyString
  end.

(** *** select_map.cpp *)
Section Select.
  Context {Map : Type}.
  (** A map: everything but the origin height, and that height. *)
  Record fmap := mkFM { fm_map : Map; fm_z : Z }.

  (** 41-43, 85 and [trans]: globals, floor_prev, the latched map and the offset. *)
  Record sst := mkS {
    s_maps : list fmap;          (* maps.maps, heights already zeroed *)
    s_orig : list Z;             (* orig_mapinfos[i].origin.position.z *)
    s_cur : Z; s_prev : Z;
    s_latched : option fmap;     (* last message on the latched topic "map" *)
    s_off : Z }.                 (* trans.transform.translation.z *)
  Definition s0 : sst := mkS [] [] 0 (-1) None 0.

  Inductive sev := EvMaps (l : list fmap) | EvFloor (f : Z) | EvCycle.
  (** Observable effects of a cycle. *)
  Inductive sout := Publish (m : fmap) | Broadcast (z : Z).

  (** 45-55 cbMaps, 56-59 cbFloor, 86-109 the body of the main loop after the
      callbacks of spinOnce ran (they are separate events here). *)
  Definition sstep (s : sst) (e : sev) : outcome (sst * list sout) :=
    match e with
    | EvMaps l => Ok (mkS (map (fun m => mkFM (fm_map m) 0) l) (map fm_z l)
                          (s_cur s) (s_prev s) (s_latched s) (s_off s), [])
    | EvFloor f => Ok (mkS (s_maps s) (s_orig s) f (s_prev s) (s_latched s) (s_off s), [])
    | EvCycle =>
        match s_maps s with
        | [] => Ok (s, [])
        | _ =>
          if negb (s_cur s =? s_prev s) then
            if (0 <=? s_cur s) && (s_cur s <? Z.of_nat (List.length (s_maps s))) then
              match nth_error (s_maps s) (Z.to_nat (s_cur s)), nth_error (s_orig s) (Z.to_nat (s_cur s)) with
              | Some m, Some z =>
                  Ok (mkS (s_maps s) (s_orig s) (s_cur s) (s_cur s) (Some m) z, [Publish m; Broadcast z])
              | _, _ => UB
              end
            else Ok (mkS (s_maps s) (s_orig s) (s_cur s) (s_cur s) (s_latched s) (s_off s), [Broadcast (s_off s)])
          else Ok (s, [Broadcast (s_off s)])
        end
    end.
  Definition srun (s : sst) (es : list sev) : outcome (sst * list sout) :=
    foldM (fun so e => do r <- sstep (fst so) e; Ok (fst r, snd so ++ snd r)) es (s, []).
End Select.
