(** Model of the construction of the costmap node from its parameters: /repo/costmap_cspace/src/costmap_3d.cpp:164-387 (getMapOverlayModeFromString, the constructor
    Costmap3DOFNode()), /repo/costmap_cspace/include/costmap_cspace/costmap_3d.h:48-104 (Costmap3d), polygon.h:98-122 (Polygon from XML), class_loader.h:64-83,
    /repo/costmap_cspace/src/costmap_3d_layers.cpp:37-57 (registered classes) and the loadConfig and setExpansion of the layers.

    Simplifications.  The accessors of XmlRpc::XmlRpcValue belong to a dependency (xmlrpcpp of ros_comm) and are modelled after its published behaviour: a value that
    was never set turns into a zero value of the type it is read as, any other value of the wrong type throws.  Parameters read with pnh_.param are given as the values
    it returns (defaults included).  Doubles are real numbers or not finite; their conversion to float is not modelled.  A thrown exception and a failed ROS_ASSERT both
    end the node and are not told apart: [None]. *)
From Coq Require Import Reals ZArith List String Bool.
From Verif Require Import Common Polygon Overlay.
Import ListNotations.
Local Open Scope string_scope.
Local Open Scope list_scope.

(** *** XML values *)
Inductive num := Fin (r : R) | NotFinite.
Inductive xv := XInvalid | XBool (b : bool) | XInt (z : Z) | XDouble (d : num) | XString (s : string) | XArray (l : list xv) | XStruct (m : list (string * xv)) | XOther.

Definition andthen {A B : Type} (x : option A) (f : A -> option B) : option B := match x with Some a => f a | None => None end.
Notation "'let?' x := e 'in' f" := (andthen e (fun x => f)) (at level 200, x name, e at level 100, f at level 200).
Fixpoint each {A B : Type} (f : A -> option B) (l : list A) : option (list B) :=
  match l with
  | [] => Some []
  | a :: l' => let? b := f a in let? bs := each f l' in Some (b :: bs)
  end.

(** XmlRpcValue::operator[](std::string): an absent member is created without a value. *)
Fixpoint find_key (m : list (string * xv)) (k : string) : option xv :=
  match m with
  | [] => None
  | (k', v) :: m' => if String.eqb k' k then Some v else find_key m' k
  end.
Definition at_key (v : xv) (k : string) : option xv :=
  match v with
  | XStruct m => Some (match find_key m k with Some x => x | None => XInvalid end)
  | XInvalid => Some XInvalid
  | _ => None
  end.
(** XmlRpcValue::hasMember. *)
Definition has_member (v : xv) (k : string) : bool :=
  match v with XStruct m => match find_key m k with Some _ => true | None => false end | _ => false end.
(** XmlRpcValue::operator[](int): an array that is too short is extended with values never set. *)
Definition at_index (v : xv) (i : nat) : option xv :=
  match v with
  | XArray l => Some (nth i l XInvalid)
  | XInvalid => Some XInvalid
  | _ => None
  end.
(** The conversion operators of XmlRpcValue. *)
Definition as_double (v : xv) : option num := match v with XDouble d => Some d | XInvalid => Some (Fin 0) | _ => None end.
Definition as_int (v : xv) : option Z := match v with XInt z => Some z | XInvalid => Some 0%Z | _ => None end.
Definition as_bool (v : xv) : option bool := match v with XBool b => Some b | XInvalid => Some false | _ => None end.
Definition as_string (v : xv) : option string := match v with XString s => Some s | XInvalid => Some "" | _ => None end.

(** *** Footprints *)
(** polygon.h:108-119: one vertex. *)
Definition vertex (v : xv) : option (num * num) :=
  let? a := at_index v 0 in let? x := as_double a in
  let? b := at_index v 1 in let? y := as_double b in
  Some (x, y).
(** Polygon(XmlRpcValue), polygon.h:98-122. *)
Definition polygon_xml (v : xv) : option (list (num * num)) :=
  match v with
  | XArray l =>
      if (length l <? 3)%nat then None
      else let? ps := each vertex l in Some (ps ++ firstn 1 ps)
  | _ => None
  end.

(** *** Layers *)
(** Members of Costmap3dLayerFootprint set by a configuration, footprint.h:57-66. *)
Record draw := Draw { d_expand : R; d_spread : R; d_min : Z; d_poly : list (num * num); d_keep : bool }.
(** setExpansion, footprint.h:100-115. *)
Definition expansion (e s : num) (c : Z) : option (R * R * Z) :=
  match e, s with
  | Fin e, Fin s => if (if Rle_dec 0 e then true else false) && (if Rle_dec 0 s then true else false) && (0 <=? c)%Z && (c <? 100)%Z then Some (e, s, c) else None
  | _, _ => None
  end.

(** A layer of one of the classes, with its configuration.  [LStatic] and [LUpdate] are the output layers of the node. *)
Inductive lclass := LFoot (d : draw) | LPlain (d : draw) | LUnknown (c : Z) | LStop | LStatic | LUpdate.
(** Class and configuration, overlay_mode_ = OVERWRITE, topic of the overlay map. *)
Record lay := Lay { y_class : lclass; y_overwrite : bool; y_topic : option string }.

(** The expansion as Costmap3dLayerFootprint and Costmap3dLayerPlain load it, footprint.h:86-91, plain.h:62-67. *)
Definition load_expansion (xml : xv) : option (R * R * Z) :=
  let? c := (if has_member xml "linear_spread_min_cost" then let? v := at_key xml "linear_spread_min_cost" in as_int v else Some 0%Z) in
  let? ve := at_key xml "linear_expand" in let? e := as_double ve in
  let? vs := at_key xml "linear_spread" in let? s := as_double vs in
  expansion e s c.
(** Costmap3dLayerFootprint::loadConfig, footprint.h:84-95. *)
Definition load_footprint (xml : xv) : option draw :=
  let? x := load_expansion xml in
  let? vf := at_key xml "footprint" in let? fp := polygon_xml vf in
  let? k := (if has_member xml "keep_unknown" then let? v := at_key xml "keep_unknown" in as_bool v else Some false) in
  Some (Draw (fst (fst x)) (snd (fst x)) (snd x) fp k).
(** Costmap3dLayerPlain: the constructor's footprint, plain.h:49-58, and loadConfig, 60-68. *)
Definition load_plain (xml : xv) : option draw :=
  let? x := load_expansion xml in
  Some (Draw (fst (fst x)) (snd (fst x)) (snd x) (repeat (Fin 0, Fin 0) 3) false).
(** Costmap3dLayerUnknownHandle: the constructor, unknown_handle.h:53-56, and loadConfig, 57-63; the member is an int8_t. *)
Definition load_unknown (xml : xv) : option Z :=
  if has_member xml "unknown_cost" then let? v := at_key xml "unknown_cost" in let? z := as_int v in Some (i8 z) else Some (-1)%Z.
(** Costmap3dLayerClassLoader::loadClass, class_loader.h:71-78, with the classes of costmap_3d_layers.cpp, and loadConfig of the new layer. *)
Definition load_class (name : string) (xml : xv) : option lclass :=
  if String.eqb name "Costmap3dLayerFootprint" then let? d := load_footprint xml in Some (LFoot d)
  else if String.eqb name "Costmap3dLayerPlain" then let? d := load_plain xml in Some (LPlain d)
  else if String.eqb name "Costmap3dLayerStopPropagation" then Some LStop
  else if String.eqb name "Costmap3dLayerUnknownHandle" then let? c := load_unknown xml in Some (LUnknown c)
  else None.
(** getMapOverlayModeFromString, costmap_3d.cpp:164-177: is it OVERWRITE? *)
Definition overlay_mode (s : string) : option bool :=
  if String.eqb s "overwrite" then Some true else if String.eqb s "max" then Some false else None.
(** layer_xml.second["footprint"] = footprint_xml, 272-273 and 338-339. *)
Definition with_footprint (fp xml : xv) : xv :=
  if has_member xml "footprint" then xml
  else match xml with XStruct m => XStruct (("footprint", fp) :: m) | _ => XStruct [("footprint", fp)] end.
(** One entry of static_layers or layers, costmap_3d.cpp:250-283 and 316-349: the two loops are the same. *)
Definition add_layer (fp xml : xv) : option lay :=
  let? vn := at_key xml "name" in let? name := as_string vn in
  let? vo := at_key xml "overlay_mode" in
  let? mode := (match vo with XString s => overlay_mode s | _ => Some false end) in
  let? vt := at_key xml "type" in
  let? type := (match vt with XString s => Some s | _ => None end) in
  let? c := load_class type (with_footprint fp xml) in
  Some (Lay c mode (Some name)).
(** costmap_3d.cpp:229-283 and 295-349: the parameter must be an array with at least one entry. *)
Definition add_layers (fp xml : xv) : option (list lay) :=
  match xml with
  | XArray l => if (length l <? 1)%nat then None else each (add_layer fp) l
  | _ => None
  end.

(** *** The node *)
Record node_params := NodeParams {
  n_ang : Z;                  (* ang_resolution *)
  n_footprint : option xv;    (* footprint, if set *)
  n_expand : num; n_spread : num; n_min : Z;  (* linear_expand, linear_spread, linear_spread_min_cost *)
  n_static : option xv;       (* static_layers, if set *)
  n_layers : option xv;       (* layers, if set *)
  n_overlay : string          (* overlay_mode *) }.
(** The layers between the root and the static output, costmap_3d.cpp:227-284. *)
Definition static_layers (p : node_params) (fp : xv) : option (list lay) :=
  match n_static p with Some xml => add_layers fp xml | None => Some [] end.
(** The layers after the static output, 293-378, the single layer mode included. *)
Definition dynamic_layers (p : node_params) (fp : xv) : option (list lay) :=
  match n_layers p with
  | Some xml => add_layers fp xml
  | None =>
      let? mode := overlay_mode (n_overlay p) in
      let? d := load_footprint (XStruct [("footprint", fp); ("linear_expand", XDouble (n_expand p)); ("linear_spread", XDouble (n_spread p))]) in
      Some [Lay (LFoot d) mode (Some "map_overlay")]
  end.
(** The constructor, 180-387: angular resolution, root layer, the other layers from the root's child on. *)
Definition build (p : node_params) : option (Z * draw * list lay) :=
  let? fp := n_footprint p in
  let? poly := polygon_xml fp in
  if (0 <? n_ang p)%Z then
    let? x := expansion (n_expand p) (n_spread p) (n_min p) in
    let? st := static_layers p fp in
    let? dy := dynamic_layers p fp in
    Some (n_ang p, Draw (fst (fst x)) (snd (fst x)) (snd x) poly false,
          st ++ [Lay LStatic false None] ++ dy ++ [Lay LUpdate false None])
  else None.
(** The topics the node subscribes to for overlay maps, with the position of the layer (0 = first after the root) they go to: 280-282, 346-348, 375-377. *)
Fixpoint topics (i : nat) (ls : list lay) : list (string * nat) :=
  match ls with
  | [] => []
  | l :: ls' => (match y_topic l with Some t => [(t, i)] | None => [] end) ++ topics (S i) ls'
  end.
