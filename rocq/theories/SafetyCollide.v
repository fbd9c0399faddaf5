(** Model of the collision test of one predicted pose (SafetyLimiterNode::predict, /repo/safety_limiter/src/safety_limiter.cpp:396-484) and of the
    accumulation of the point clouds it is given (cbCloud 736-772, cbPredictTimer 286-319, predict 354-394).
    Simplifications: exact reals instead of float; the VoxelGrid filter of PCL is an arbitrary function on point lists; PCL's radius search returns
    the points nearer than the radius; transformations from the fixed frame to the robot are arbitrary functions on points. *)
From Coq Require Import Reals.
From Verif Require Import Common Polygon SafetyPredict.
Local Open Scope R_scope.

Record pt3 := Pt3 { px : R; py : R; pz : R }.

(** ** Eigen::Affine3f restricted to the plane: a 2x2 matrix and an offset. *)
Record aff := Aff { m11 : R; m12 : R; m21 : R; m22 : R; tx : R; ty : R }.
Definition aff_id : aff := Aff 1 0 0 1 0 0.
Definition aff_mul (a b : aff) : aff :=
  Aff (m11 a * m11 b + m12 a * m21 b) (m11 a * m12 b + m12 a * m22 b) (m21 a * m11 b + m22 a * m21 b) (m21 a * m12 b + m22 a * m22 b)
      (m11 a * tx b + m12 a * ty b + tx a) (m21 a * tx b + m22 a * ty b + ty a).
Definition aff_rot (th : R) : aff := Aff (cos th) (- sin th) (sin th) (cos th) 0 0.
Definition aff_trans (x y : R) : aff := Aff 1 0 0 1 x y.
(** pcl::transformPoint. *)
Definition aff_app (a : aff) (p : vec2) : vec2 := V2 (m11 a * vx p + m12 a * vy p + tx a) (m21 a * vx p + m22 a * vy p + ty a).

Section Test.
  Variables (vx_ vy_ w dt : R).
  (** 427-429. *)
  Definition motion : aff := aff_mul (aff_rot (- w * dt)) (aff_trans (- vx_ * dt) (- vy_ * dt)).
  (** 430-432. *)
  Definition motion_inv : aff := aff_mul (aff_trans (vx_ * dt) (vy_ * dt)) (aff_rot (w * dt)).
  (** 425-426, 433-434, 455-456 after [k] steps. *)
  Fixpoint steps (m : aff) (k : nat) : aff := match k with O => aff_id | S k' => aff_mul (steps m k') m end.

  Variables (z0 z1 : R).
  Variable ds : list pt3 -> list pt3.
  (** 396-410: downsampling, then the points in the height range with z = 0. *)
  Definition in_height (p : pt3) : bool := negb (Rltb (pz p) z0 || Rltb z1 (pz p)).
  Definition prepared (cloud : list pt3) : list vec2 := map (fun p => V2 (px p) (py p)) (filter in_height (ds cloud)).

  Variable fp : list vec2.
  (** 459-463: points of the cloud nearer to the predicted position than the footprint radius. *)
  Definition near (c : vec2) (r : R) (p : vec2) : bool :=
    Rltb ((vx p - vx c) * (vx p - vx c) + (vy p - vy c) * (vy p - vy c)) (r * r).
  (** 467-483. *)
  Fixpoint any_inside (m : aff) (l : list vec2) : outcome bool :=
    match l with
    | [] => Ok false
    | p :: l' => do b <- inside fp (aff_app m p); if b then Ok true else any_inside m l'
    end.
  (** 459-483. *)
  Definition collides_at (pts : list vec2) (k : nat) : outcome bool :=
    let center := aff_app (steps motion_inv k) (V2 0 0) in
    any_inside (steps motion k) (filter (near center (radius fp)) pts).
  (** predict, 396-557, for a footprint with vertices ([inside] is defined). *)
  Definition predict_cloud (c : pcfg) (cloud : list pt3) : R :=
    let pts := prepared cloud in
    predict c (sqrt (vx_ * vx_ + vy_ * vy_)) w
      (match pts with [] => CloudEmpty | _ => CloudPoints (fun k => match collides_at pts k with Ok b => b | UB => false end) end).
End Test.

(** ** Accumulated clouds *)
(** [a_points]: cloud_accum_, [a_clear]: cloud_clear_, [a_has]: has_cloud_, [a_tested]: the clouds tested by the predictions. *)
Record acc := Acc { a_points : list pt3; a_clear : bool; a_has : bool; a_tested : list (list pt3) }.
Definition acc0 : acc := Acc [] false false [].
(** A cloud in the fixed frame (None: it could not be transformed); a prediction, with the transformation from the fixed frame to the robot if there is
    one; a prediction timer that finds the cloud too old. *)
Inductive cev := KCloud (pts : option (list pt3)) | KPredict (tf : option (pt3 -> pt3)) | KTimeout.
Definition cstep (s : acc) (e : cev) : acc :=
  match e with
  (* 736-772 *)
  | KCloud None => s
  | KCloud (Some pts) => Acc ((if a_clear s then [] else a_points s) ++ pts) false true (a_tested s)
  (* 286-319, 354-394: the accumulated cloud itself is transformed *)
  | KPredict tf =>
      if negb (a_has s) then s
      else
        match a_points s, tf with
        | [], _ => Acc [] true true (a_tested s ++ [[]])
        | _, None => Acc (a_points s) true true (a_tested s)
        | _, Some f => let pts := map f (a_points s) in Acc pts true true (a_tested s ++ [pts])
        end
  (* 292-304 *)
  | KTimeout => if negb (a_has s) then s else Acc [] (a_clear s) false (a_tested s)
  end.
Definition crun (es : list cev) : acc := fold_left cstep es acc0.
