(** Model of neonavigation_common/include/neonavigation_common/compatibility.h. *)
From Verif Require Import Common.
Local Open Scope Z_scope.

(** compatibility.h:48-50. *)
Definition current_level : Z := 1.
Definition supported_level : Z := 0.
Definition default_level : Z := supported_level.

(** compatibility.h:56-62: the parameter, or the default when it is not set. *)
Definition getCompat (param : option Z) : Z := match param with Some l => l | None => default_level end.

(** compatibility.h:64-92: [None] is the exception (and ros::shutdown); [Some b]
    continues, [b] telling whether the deprecation error is logged. *)
Definition checkCompatMode (param : option Z) : option bool :=
  if getCompat param <? supported_level then None
  else if current_level <? getCompat param then None
  else if negb (getCompat param =? current_level) then Some true
  else Some false.

(** compatibility.h:101-215: every overload of [subscribe], [advertise] and
    [advertiseService] chooses between the old and the new handle and name. *)
Definition choose {T} (param : option Z) (new old : T) : T :=
  if negb (getCompat param =? current_level) then old else new.

(** A node's start-up: the check in the constructor, then its topics
    (e.g. patrol.cpp:84-88).  [None]: the node does not start. *)
Definition start_node {T} (param : option Z) (topics : list (T * T)) : option (list T) :=
  match checkCompatMode param with
  | None => None
  | Some _ => Some (map (fun '(new, old) => choose param new old) topics)
  end.
