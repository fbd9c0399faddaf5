(** Model of trajectory_tracker/src/trajectory_recorder.cpp and trajectory_saver.cpp.
    Positions are exact reals (the code computes the distance in double and rounds it
    to float, line 102-105). *)
From Coq Require Import Reals.
From Verif Require Import Common.

Section Recorder.
  Context {Q : Type}.      (* the rest of a pose: orientation, height, stamp *)
  Record rpose := mkRP { rp_x : R; rp_y : R; rp_rest : Q }.

  (** 102-105 dist2d. *)
  Definition dist2d (a b : rpose) : R :=
    sqrt ((rp_x a - rp_x b) ^ 2 + (rp_y a - rp_y b) ^ 2).

  Variable dist_interval : R.

  (** path_.poses, and clear requests waiting for the next spinOnce. *)
  Record rst := mkR { r_path : list rpose; r_clear : bool }.
  Definition rst0 : rst := mkR [] false.

  Inductive rev_ :=
  | RClearRequest                  (* a client calls ~clear_path *)
  | RLoop (tf : option rpose).     (* one turn of the loop; None = TransformException *)

  (** 107-112 clearPath, 120-164 spin: new state and the published path if any. *)
  Definition rstep (s : rst) (e : rev_) : rst * option (list rpose) :=
    match e with
    | RClearRequest => (mkR (r_path s) true, None)
    | RLoop None => (s, None)      (* 131-135: continue, no spinOnce *)
    | RLoop (Some p) =>
        let far := match r_path s with
                   | [] => true                                     (* 151 *)
                   | a :: l => if Rlt_dec dist_interval (dist2d (last l a) p) then true else false (* 156 *)
                   end in
        let path' := if far then r_path s ++ [p] else r_path s in
        let out := if far then Some path' else None in
        (* 162 spinOnce serves a pending clear request *)
        (if r_clear s then mkR [] false else mkR path' false, out)
    end.
  Fixpoint rrun (s : rst) (es : list rev_) : rst * list (option (list rpose)) :=
    match es with
    | [] => (s, [])
    | e :: es' => let '(s1, o) := rstep s e in let '(s2, os) := rrun s1 es' in (s2, o :: os)
    end.

  (** trajectory_saver.cpp 84-106 cbPath: files written; [open_ok] tells whether the
      file can be opened.  The serialised bytes stand for the path itself. *)
  Definition save_step (saved : option (list rpose)) (msg : bool * list rpose) : option (list rpose) :=
    match saved with
    | Some p => Some p
    | None => if fst msg then Some (snd msg) else None
    end.
End Recorder.
Arguments rpose : clear implicits.
Arguments rev_ : clear implicits.
