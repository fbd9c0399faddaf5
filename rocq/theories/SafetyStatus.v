(** Model of the status and the diagnostics of the safety limiter: safety_limiter/src/safety_limiter.cpp, diagnoseCollision (781-817), its calls (284, 303, 318), and the members
    has_collision_at_now_ and stuck_started_since_, which predict (354-555) sets only when it comes to the test of the poses (444, 494, 511-520) and leaves alone when it returns early
    (no points 356-364, no transformation 378-382, no points in the height range 412-420).  On top of SafetyLimiter.v.  The texts are an enumeration; the other way the updater of
    the diagnostics may call diagnoseCollision, its own timer, is left out. *)
From Coq Require Import ZArith List Bool.
From Flocq Require Import Core.Core IEEE754.BinarySingleNaN.
From Verif Require Import SafetyLimiter.
Import ListNotations.
Local Open Scope Z_scope.

(** A callback, and for a prediction what it sees: None if predict returns early, otherwise whether the robot collides where it is and the time (514). *)
Definition sev := (ev * option (bool * Z))%type.
Record sst := SSt { t_node : st; t_col : bool; t_stuck : Z }.
(** Constructor, 163-171; ros::Time(0) is 0. *)
Definition sinit (c : config) : sst := SSt (init c) false 0.

(** EPSILON, the float constant 1e-6. *)
Definition eps : f64 := f64_of 8796093 (-43).
Inductive level := LOk | LWarn | LError.
Inductive text := XTimeout | XOk | XCannotEscape | XCannotMove | XEscaping | XReducing.
(** safety_limiter_msgs/SafetyLimiterStatus and the summary of the diagnostics. *)
Record status := Status { z_ratio : f64; z_cloud : bool; z_watchdog : bool; z_stuck : Z; z_level : level; z_text : text }.
(** diagnoseCollision, 781-817. *)
Definition diagnose (s : sst) : status :=
  let n := t_node s in
  let d := if negb (s_has_cloud n) || s_wd_stop n then (LError, XTimeout)
           else if Beqb (s_r n) f1 then (LOk, XOk)
           else if flt (s_r n) eps then (LWarn, if t_col s then XCannotEscape else XCannotMove)
           else (LOk, if t_col s then XEscaping else XReducing) in
  Status (s_r n) (s_has_cloud n) (s_wd_stop n) (t_stuck s) (fst d) (snd d).

Section Node.
  Variable hyp : f64 -> f64 -> f64.
  (** A callback with the statuses it publishes. *)
  Definition sstep (s : sst) (e : sev) : sst * list status :=
    let n := t_node s in
    let n' := fst (step hyp n (fst e)) in
    match fst e with
    | EWatchdogTimer => let s' := SSt n' (t_col s) (t_stuck s) in (s', [diagnose s'])
    | EPredict now _ =>
        if negb (s_has_cloud n) then (s, [])
        else if c_timeout (s_cfg n) <? now - s_stamp n then let s' := SSt n' (t_col s) (t_stuck s) in (s', [diagnose s'])
        else
          let s' := match snd e with
                    | None => SSt n' (t_col s) (t_stuck s)
                    | Some (true, t) => SSt n' true (if t_stuck s =? 0 then t else t_stuck s)
                    | Some (false, _) => SSt n' false 0
                    end in
          (s', [diagnose s'])
    | _ => (SSt n' (t_col s) (t_stuck s), [])
    end.
  Definition srun (s : sst) (es : list sev) : sst := fold_left (fun s e => fst (sstep s e)) es s.
  Definition statuses (c : config) (es : list sev) (e : sev) : list status := snd (sstep (srun (sinit c) es) e).
End Node.
