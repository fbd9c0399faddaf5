(** Model of obj_to_pointcloud/src/obj_to_pointcloud.cpp: split (74-85) and ObjToPointcloudNode::convertObj (136-245) up to the cloud that is handed to
    pcl::VoxelGrid.  Exact real arithmetic instead of float; the random engine is a sequence of draws; pcl's readers are a function from names to contents. *)
From Coq Require Import Reals ZArith Ascii.
From Verif Require Import Common TfProjection Occlusion.
Local Open Scope R_scope.

Definition name := list ascii.
(** std::getline in the loop of 74-85: the fields between delimiters; nothing after a delimiter at the end. *)
Fixpoint fields (d : ascii) (field : name) (s : name) : list name :=
  match s with
  | [] => match field with [] => [] | _ => [rev field] end
  | c :: s' => if Ascii.eqb c d then rev field :: fields d [] s' else fields d (c :: field) s'
  end.
Definition split (input : name) (d : ascii) : list name := fields d [] input.

(** 148: file.substr(file.find_last_of(".") + 1); everything if there is no dot (npos + 1 = 0). *)
Fixpoint ext_go (rest : name) (acc : name) : name :=
  match rest with [] => acc | c :: r => if Ascii.eqb c "."%char then acc else ext_go r (c :: acc) end.
Definition ext (f : name) : name := ext_go (rev f) [].
Definition PCD : name := ["p"; "c"; "d"]%char.
Definition OBJ : name := ["o"; "b"; "j"]%char.

Record mesh := Mesh { verts : list vec3; polygons : list (list nat) }.
Record cconf := CConf { ppmsq : R; scale : R; offset : vec3 }.
(** Either the node shuts down without a cloud, or it has one. *)
Inductive conv := Shutdown | Cloud (l : list vec3).

Definition vscale (k : R) (p : vec3) : vec3 := V3 (v_x p * k) (v_y p * k) (v_z p * k).
Definition vminus (a b : vec3) : vec3 := V3 (v_x a - v_x b) (v_y a - v_y b) (v_z a - v_z b).

Section Convert.
  Variable c : cconf.
  (** ud(engine_): the n-th draw. *)
  Variable u : nat -> R.
  Variable load_pcd : name -> option (list vec3).
  Variable load_obj : name -> option mesh.

  (** 210-221: [n] points of a triangle, from the k-th draw. *)
  Fixpoint sample (n : nat) (k : nat) (p0 a b : vec3) : list vec3 :=
    match n with
    | O => []
    | S n' =>
      let r0 := u k in let r1 := u (S k) in
      let '(r0, r1) := if Rlt_dec 1 (r0 + r1) then (1 - r0, 1 - r1) else (r0, r1) in
      vadd (vadd p0 (vadd (vscale r0 a) (vscale r1 b))) (offset c) :: sample n' (S (S k)) p0 a b
    end.
  (** 201-205. *)
  Definition face_area (a b : vec3) : R :=
    5 / 10 * sqrt ((v_y a * v_z b - v_z a * v_y b) ^ 2 + (v_z a * v_x b - v_x a * v_z b) ^ 2 + (v_x a * v_y b - v_y a * v_x b) ^ 2).
  (** 206-209; the conversion to int is undefined beyond the range of int. *)
  Definition face_num (k : nat) (a b : vec3) : outcome Z :=
    let numf := ppmsq c * face_area a b in
    if Rlt_dec (Rabs numf) 2147483647 then
      let num := truncR numf in
      Ok (if Rlt_dec (u k) (numf - IZR num) then num + 1 else num)%Z
    else UB.
  (** 186-222; [None]: the node shuts down.  Reading a vertex that does not exist is undefined. *)
  Definition face (pts : list vec3) (st : nat * list vec3) (poly : list nat) : outcome (option (nat * list vec3)) :=
    match poly with
    | [i; j; l] =>
      match nth_error pts i, nth_error pts j, nth_error pts l with
      | Some p0, Some p1, Some p2 =>
        let a := vminus p1 p0 in let b := vminus p2 p0 in
        do num <- face_num (fst st) a b;
        let n := Z.to_nat num in
        Ok (Some (S (fst st) + 2 * n, snd st ++ sample n (S (fst st)) p0 a b))%nat
      | _, _, _ => UB
      end
    | _ => Ok None
    end.
  Fixpoint faces (pts : list vec3) (st : nat * list vec3) (ps : list (list nat)) : outcome (option (nat * list vec3)) :=
    match ps with
    | [] => Ok (Some st)
    | p :: ps' => do r <- face pts st p; match r with None => Ok None | Some st' => faces pts st' ps' end
    end.
  (** 146-224, one file. *)
  Definition file_step (st : nat * list vec3) (f : name) : outcome (option (nat * list vec3)) :=
    if list_eq_dec ascii_dec (ext f) PCD then
      match load_pcd f with
      | None => Ok None
      | Some pts => Ok (Some (fst st, snd st ++ map (fun p => vadd (vscale (scale c) p) (offset c)) pts))
      end
    else if list_eq_dec ascii_dec (ext f) OBJ then
      match load_obj f with
      | None => Ok None
      | Some m => faces (map (vscale (scale c)) (verts m)) st (polygons m)
      end
    else Ok (Some st).
  Fixpoint files (st : nat * list vec3) (fs : list name) : outcome (option (nat * list vec3)) :=
    match fs with
    | [] => Ok (Some st)
    | f :: fs' => do r <- file_step st f; match r with None => Ok None | Some st' => files st' fs' end
    end.
  (** 136-227, with the parameter [objs] of 101-115 (an empty one shuts the node down). *)
  Definition convert (objs : name) : outcome conv :=
    match objs with
    | [] => Ok Shutdown
    | _ => do r <- files (0%nat, []) (split objs ","%char); Ok (match r with None => Shutdown | Some (_, l) => Cloud l end)
    end.
End Convert.
