(** Model of trajectory_tracker/src/trajectory_server.cpp: loading and smoothing of a path (change, 235-276) and its editing by interactive markers
    (processFeedback 138-165, updateIM 166-234).
    Positions are exact reals; the rest of a pose is opaque.  Reading and deserialising the file are one event (None: the file cannot be opened).  The
    interactive marker server passes on feedback only for the markers it knows.  Left out: the looks of the markers, the headers of the path and the poses, and a file that
    cannot be deserialised. *)
From Coq Require Import Reals.
From Verif Require Import Common SmoothFilter.
Local Open Scope R_scope.

Record spose := SPose { sp_x : R; sp_y : R; sp_rest : Z }.
(** [t_path]: path_.poses, [t_marks]: number of markers "0", "1", ... on the server, [t_name]: req_path_.filename (None: ""), [t_pub]: published paths. *)
Record tst := TSt { t_path : list spose; t_marks : nat; t_name : option Z; t_pub : list (list spose) }.
Definition tst0 (name : Z) : tst := TSt [] 0 (Some name) [].

(** Feedback: moved, mouse released, "Delete", "Add", another menu entry, another event. *)
Inductive feedback := FMove (p : spose) | FRelease | FDelete | FAdd | FMenu | FOther.
Inductive tev := TChange (name : Z) (file : option (list spose)) | TFeedback (id : nat) (f : feedback).

(** poses[i] = p, poses.erase, poses.insert; outside of the vector they are undefined. *)
Definition set_at (l : list spose) (i : nat) (p : spose) : outcome (list spose) :=
  if (i <? length l)%nat then Ok (firstn i l ++ p :: skipn (S i) l) else UB.
Definition erase_at (l : list spose) (i : nat) : outcome (list spose) :=
  if (i <? length l)%nat then Ok (firstn i l ++ skipn (S i) l) else UB.
Definition double_at (l : list spose) (i : nat) : outcome (list spose) :=
  match nth_error l i with Some p => Ok (firstn i l ++ p :: skipn i l) | None => UB end.

Section Server.
  (** filter_step_. *)
  Variable step_ : R.
  (** 254-258: both filters in turn.  No angle is filtered, so the remainder of [fin] is not used. *)
  Fixpoint smooth_from (fx fy : fil) (l : list spose) : list spose :=
    match l with
    | [] => []
    | p :: l' =>
        let fx' := fin (fun r => r) fx (sp_x p) in
        let fy' := fin (fun r => r) fy (sp_y p) in
        SPose (f_out fx') (f_out fy') (sp_rest p) :: smooth_from fx' fy' l'
    end.
  (** 246-262. *)
  Definition smooth (l : list spose) : outcome (list spose) :=
    if Rlt_dec 0 step_ then
      match l with
      | [] => UB
      | p :: _ => Ok (smooth_from (make LPF step_ (sp_x p) false) (make LPF step_ (sp_y p) false) l)
      end
    else Ok l.

  Definition tstep (s : tst) (e : tev) : outcome tst :=
    match e with
    (* 235-276 *)
    | TChange name (Some file) => do l <- smooth file; Ok (TSt l (length l) (Some name) (t_pub s ++ [l]))
    | TChange _ None => Ok (TSt [] (t_marks s) None (t_pub s))
    (* 138-165 *)
    | TFeedback id f =>
        if (id <? t_marks s)%nat then
          match f with
          | FMove p => do l <- set_at (t_path s) id p; Ok (TSt l (t_marks s) (t_name s) (t_pub s))
          | FRelease => Ok (TSt (t_path s) (t_marks s) (t_name s) (t_pub s ++ [t_path s]))
          | FDelete => do l <- erase_at (t_path s) id; Ok (TSt l (length l) (t_name s) (t_pub s ++ [l]))
          | FAdd => do l <- double_at (t_path s) id; Ok (TSt l (length l) (t_name s) (t_pub s ++ [l]))
          | FMenu => Ok (TSt (t_path s) (length (t_path s)) (t_name s) (t_pub s ++ [t_path s]))
          | FOther => Ok s
          end
        else Ok s
    end.
  Definition trun (name : Z) (es : list tev) : outcome tst := foldM tstep es (tst0 name).
End Server.
