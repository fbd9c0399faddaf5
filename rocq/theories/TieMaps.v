(** Model of map_organizer/src/tie_maps.cpp: reading the listed map files and publishing them as one array and one by one (TieMapNode, 55-231).
    Simplifications: reals instead of double; map_server's image loader is an arbitrary function; yaml-cpp is a function from file names to documents, of
    which only the entries that are read are kept; stamps and log messages are left out. *)
From Coq Require Import Reals ZArith Ascii List.
From Verif Require Import Common ObjCloud.
Import ListNotations.

(** An entry of a YAML document: absent, present but not convertible to the type that is wanted, or a value. *)
Inductive entry (A : Type) := Absent | Unreadable | Value (a : A).
Arguments Absent {A}. Arguments Unreadable {A}. Arguments Value {A} a.
Record doc := Doc { d_resolution : entry R; d_negate : entry Z; d_occupied : entry R; d_free : entry R; d_mode : entry name;
                    d_origin : entry (R * R * R); d_height : entry R; d_image : entry name }.
(** Opening and parsing a file: it cannot be opened, it is not YAML, or a document. *)
Inductive content := NoFile | NotYaml | Yaml (d : doc).
Inductive mapmode := TRINARY | SCALE | RAW.

(** The map that is published: what the image loader returned, origin.position.z and header.frame_id. *)
Record omap := OMap { o_loaded : Z; o_z : R; o_frame : name }.
(** How the constructor ends: it has published everything and the node spins; ros::shutdown() and return; exit(-1); an exception nobody catches. *)
Inductive ending := Spins | Stopped | Exited | Terminated.
Inductive effect := PubMap (i : nat) (m : omap) | PubArray (l : list omap).

Definition SLASH : ascii := "/"%char.
Definition mode_trinary : name := ["t"; "r"; "i"; "n"; "a"; "r"; "y"]%char.
Definition mode_scale : name := ["s"; "c"; "a"; "l"; "e"]%char.
Definition mode_raw : name := ["r"; "a"; "w"]%char.

(** dirname of POSIX (199): the path without its last component and the slashes around it; "." if there is no slash before the component, "/" if only
    slashes are left. *)
Fixpoint after_slash (r : name) : option name :=
  match r with [] => None | c :: r' => if Ascii.eqb c SLASH then Some r' else after_slash r' end.
Fixpoint strip (r : name) : name := match r with [] => [] | c :: r' => if Ascii.eqb c SLASH then strip r' else r end.
Definition dirname (f : name) : name :=
  match f, strip (rev f) with
  | [], _ => ["."%char]
  | _, [] => [SLASH]
  | _, r =>
    match after_slash r with
    | None => ["."%char]
    | Some r' => match strip r' with [] => [SLASH] | r'' => rev r'' end
    end
  end.

Section Tie.
  (** HAVE_NEW_YAMLCPP (CMakeLists.txt 24-26). *)
  Variable new_yaml : bool.
  Variable open : name -> content.
  (** map_server::loadMapFromFile; None: it throws. *)
  Variable load : name -> R -> Z -> R -> R -> R * R * R -> mapmode -> option Z.
  (** parameter frame_id *)
  Variable frame : name.

  Definition res (A : Type) := (A + ending)%type.
  Definition rbind {A B} (x : res A) (f : A -> res B) : res B := match x with inl a => f a | inr e => inr e end.

  (** [try { doc[key] >> v } catch (YAML::InvalidScalar&) { shutdown }] (103-142, 165-176, 185-208): an absent entry throws KeyNotFound (old) or
      BadConversion (new), an unreadable one InvalidScalar (old) or BadConversion (new).  Only InvalidScalar is caught. *)
  Definition required {A} (e : entry A) : res A :=
    match e with
    | Value a => inl a
    | Absent => inr Terminated
    | Unreadable => inr (if new_yaml then Terminated else Stopped)
    end.
  (** 143-164: every YAML::Exception is caught. *)
  Definition read_mode (e : entry name) : res mapmode :=
    match e with
    | Value m => if list_eq_dec ascii_dec m mode_trinary then inl TRINARY
                 else if list_eq_dec ascii_dec m mode_scale then inl SCALE
                 else if list_eq_dec ascii_dec m mode_raw then inl RAW
                 else inr Exited
    | _ => inl TRINARY
    end.
  (** 177-184. *)
  Definition read_height (e : entry R) : R := match e with Value h => h | _ => 0%R end.
  (** 189-202. *)
  Definition image_path (f img : name) : res name :=
    match img with
    | [] => inr Stopped
    | c :: _ => inl (if Ascii.eqb c SLASH then img else dirname f ++ SLASH :: img)
    end.
  (** 88-218: one file. *)
  Definition read_file (f : name) : res omap :=
    match open f with
    | NoFile => inr Stopped
    | NotYaml => inr Terminated
    | Yaml d =>
      rbind (required (d_resolution d)) (fun r =>
      rbind (required (d_negate d)) (fun n =>
      rbind (required (d_occupied d)) (fun oc =>
      rbind (required (d_free d)) (fun fr =>
      rbind (read_mode (d_mode d)) (fun m =>
      rbind (required (d_origin d)) (fun og =>
      rbind (required (d_image d)) (fun img =>
      rbind (image_path f img) (fun path =>
        match load path r n oc fr og m with
        | None => inr Terminated
        | Some g => inl (OMap g (read_height (d_height d)) frame)
        end))))))))
    end.
  (** 83-229. *)
  Fixpoint tie_loop (i : nat) (maps : list omap) (fs : list name) : ending * list effect :=
    match fs with
    | [] => (Spins, [PubArray maps])
    | f :: fs' =>
      match read_file f with
      | inr e => (e, [])
      | inl m => let (e, t) := tie_loop (S i) (maps ++ [m]) fs' in (e, PubMap i m :: t)
      end
    end.
  Definition tie_maps (map_files : name) : ending * list effect := tie_loop 0 [] (split map_files ","%char).
End Tie.
