(** Model of track_odometry/include/track_odometry/kalman_filter1.h.

    Doubles are exact reals extended with an infinity and a not-a-number value
    (sign of infinity and rounding are not modelled). *)
From Coq Require Import Reals List.
Import ListNotations.
Local Open Scope R_scope.

Inductive ext := Fin (r : R) | Inf | NaN.

(** kalman_filter1.h:40-41. *)
Record kf := mkKf { kf_x : ext; kf_sigma : ext }.

(** Addition as used by [predict]. *)
Definition ext_add (a b : ext) : ext :=
  match a, b with
  | Fin x, Fin y => Fin (x + y)
  | NaN, _ => NaN
  | _, NaN => NaN
  | Inf, Fin _ => Inf
  | Fin _, Inf => Inf
  | Inf, Inf => Inf      (* equal signs; sigma is never -inf *)
  end.

(** kalman_filter1.h:54-58. *)
Definition predict (f : kf) (x_plus sigma_plus : ext) : kf :=
  mkKf (ext_add (kf_x f) x_plus) (ext_add (kf_sigma f) sigma_plus).

(** kalman_filter1.h:59-75.  0/0 is NaN.  (An infinite [x_in] with finite sigmas
    gives a non-finite estimate, represented by NaN.) *)
Definition measure (f : kf) (x_in sigma_in : ext) : kf :=
  match sigma_in with
  | Inf => f
  | _ =>
    match kf_sigma f with
    | Inf => mkKf (match x_in with Inf => Fin 0 | v => v end) sigma_in
    | _ =>
      match kf_sigma f, sigma_in with
      | Fin s, Fin si =>
          if Req_EM_T (s * s + si * si) 0 then mkKf NaN NaN
          else
            let kt := s * s / (s * s + si * si) in
            mkKf (match kf_x f, x_in with
                  | Fin x, Fin xi => Fin (x + kt * (xi - x))
                  | _, _ => NaN
                  end)
                 (Fin ((1 - kt) * s))
      | _, _ => mkKf NaN NaN
      end
    end
  end.

Inductive kop := Predict (xp sp : ext) | Measure (xi si : ext).
Definition kstep (f : kf) (o : kop) : kf :=
  match o with Predict a b => predict f a b | Measure a b => measure f a b end.
Definition krun (f : kf) (os : list kop) : kf := fold_left kstep os f.
