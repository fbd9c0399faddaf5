(** Model of joystick_interrupt/src/joystick_interrupt.cpp and joystick_mux.cpp.

    Times are integer nanoseconds (ros::Time); every callback reads the clock once.
    Axis values, gains and commands are abstract types: the arithmetic is whatever
    float/double arithmetic the gains stand for. *)
From Verif Require Import Common.
Local Open Scope Z_scope.

(** *** joystick_interrupt.cpp *)
Section Interrupt.
  Context {A V : Type}.         (* axis values (float), command components (double) *)
  Variables (a0 : A) (abs_gt : A -> A -> bool)   (* 0.0f; std::abs(x) > std::abs(y) *)
            (hi_lin hi_ang : A -> A)              (* *= linear/angular_high_speed_ratio_ *)
            (gain_x gain_y gain_ang : A -> V)     (* * linear_vel_, linear_y_vel_, angular_vel_ *)
            (v0 : V).                             (* 0.0 *)

  (** Parameters, 161-200. *)
  Record jparams := mkJP {
    jp_timeout : Z; jp_button : Z; jp_high : Z; jp_sim : bool;
    jp_lin : Z; jp_lin2 : Z; jp_liny : Z; jp_liny2 : Z; jp_ang : Z; jp_ang2 : Z }.
  Variable P : jparams.

  Record joy := mkJoy { j_axes : list A; j_buttons : list bool }.
  Record twist := mkTw { tw_x : V; tw_y : V; tw_z : V; tw_rx : V; tw_ry : V; tw_rz : V }.

  (** [static_cast<size_t>(i) >= size]: a negative int becomes huge. *)
  Definition out_of_range (i : Z) (size : nat) : bool := Z.of_nat size <=? i mod 2 ^ 64.
  (** [v[i]] of a std::vector. *)
  Definition vec_at {T} (l : list T) (i : Z) : outcome T :=
    if (i <? 0) then UB else match nth_error l (Z.to_nat i) with Some x => Ok x | None => UB end.

  (** 67-80 getAxisValue. *)
  Definition getAxisValue (m : joy) (axis : Z) : outcome A :=
    if axis <? 0 then Ok a0
    else if out_of_range axis (length (j_axes m)) then Ok a0
    else vec_at (j_axes m) axis.
  (** 82-88 getJoyValue. *)
  Definition getJoyValue (m : joy) (axis axis2 : Z) : outcome A :=
    do v <- getAxisValue m axis;
    do v2 <- getAxisValue m axis2;
    Ok (if abs_gt v2 v then v2 else v).

  (** 64-65: last_joy_msg_, last_input_twist_. *)
  Record jst := mkJst { js_last : Z; js_twist : twist }.
  Definition tw0 : twist := mkTw v0 v0 v0 v0 v0 v0.
  (** 201: [last_joy_msg_ = ros::Time(0)]; the twist message is zero-initialised. *)
  Definition jst0 : jst := mkJst 0 tw0.

  Inductive jev := EvJoy (now : Z) (m : joy) | EvTwist (now : Z) (t : twist).

  (** 90-138 cbJoy and 139-154 cbTwist: next state and published commands. *)
  Definition jstep (s : jst) (e : jev) : outcome (jst * list twist) :=
    match e with
    | EvJoy now m =>
        if out_of_range (jp_button P) (length (j_buttons m)) then Ok (mkJst 0 (js_twist s), [])
        else
          do b <- vec_at (j_buttons m) (jp_button P);
          if negb b then
            Ok (mkJst 0 (js_twist s), if negb (js_last s =? 0) then [js_twist s] else [])
          else
            do x <- getJoyValue m (jp_lin P) (jp_lin2 P);
            do y <- getJoyValue m (jp_liny P) (jp_liny2 P);
            do a <- getJoyValue m (jp_ang P) (jp_ang2 P);
            do hb <- (if 0 <=? jp_high P
                      then if out_of_range (jp_high P) (length (j_buttons m)) then Ok false
                           else vec_at (j_buttons m) (jp_high P)
                      else Ok false);
            let x' := if hb then hi_lin x else x in
            let y' := if hb then hi_lin y else y in
            let a' := if hb then hi_ang a else a in
            Ok (mkJst now (js_twist s), [mkTw (gain_x x') (gain_y y') v0 v0 v0 (gain_ang a')])
    | EvTwist now t =>
        Ok (mkJst (js_last s) t,
            if (jp_timeout P <? now - js_last s) || (jp_sim P && (js_last s =? 0)) then [t] else [])
    end.

  Fixpoint jrun (s : jst) (es : list jev) : outcome (jst * list (list twist)) :=
    match es with
    | [] => Ok (s, [])
    | e :: es' => do r <- jstep s e;
                  do r' <- jrun (fst r) es';
                  Ok (fst r', snd r :: snd r')
    end.
End Interrupt.

(** *** joystick_mux.cpp *)
Section Mux.
  Context {M : Type}.       (* message contents *)
  Variables (timeout button : Z).

  Inductive mev :=
  | MJoy (now : Z) (buttons : list bool)
  | MTopic (now : Z) (id : Z) (m : M)
  | MTimer (now : Z).

  (** 46-49. *)
  Record mst := mkM { ms_last : Z; ms_sel : Z }.

  (** 52-71 cbJoy, 72-99 cbTopic, 100-106 cbTimer: next state and forwarded messages. *)
  Definition mstep (s : mst) (e : mev) : outcome (mst * list M) :=
    match e with
    | MJoy now bs =>
        if out_of_range button (length bs) then Ok (s, [])
        else do b <- vec_at bs button; Ok (mkM now (if b then 1 else 0), [])
    | MTopic _ id m => Ok (s, if ms_sel s =? id then [m] else [])
    | MTimer now => Ok (if timeout <? now - ms_last s then mkM (ms_last s) 0 else s, [])
    end.
  (** 109-130: [last_joy_msg_ = now], [selected_ = 0]. *)
  Definition minit (now : Z) : mst := mkM now 0.

  Fixpoint mrun (s : mst) (es : list mev) : outcome (mst * list (list M)) :=
    match es with
    | [] => Ok (s, [])
    | e :: es' => do r <- mstep s e;
                  do r' <- mrun (fst r) es';
                  Ok (fst r', snd r :: snd r')
    end.
End Mux.
