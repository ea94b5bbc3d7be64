(* Model of quaternions and rotations (src/archon/math/quaternion.hpp, src/archon/math/quaternion.cpp, src/archon/math/rotation.hpp), and of the
   operations on 3-vectors that they use (src/archon/math/vector.hpp).

   The scalar type is any type with the needed operations (see ops).  The theorems are about exact arithmetic: rounding is not modelled.  The
   functions of the standard library are parameters (see funcs). *)
From Verif Require Import MatrixModel.

(* std::sqrt(), std::cos(), std::sin(), std::atan2() *)
Record funcs (T : ops) := Funcs { f_sqrt : scalar T -> scalar T; f_cos : scalar T -> scalar T; f_sin : scalar T -> scalar T; f_atan2 : scalar T -> scalar T -> scalar T }.
Arguments f_sqrt {T}.
Arguments f_cos {T}.
Arguments f_sin {T}.
Arguments f_atan2 {T}.

(* math::Vector<3, double>, math::Quaternion: quaternion.hpp:84-103, math::Rotation: rotation.hpp:61-80 *)
Record vec3 (T : ops) := V3 { v_x : scalar T; v_y : scalar T; v_z : scalar T }.
Arguments V3 {T}.
Arguments v_x {T}.
Arguments v_y {T}.
Arguments v_z {T}.
Record quat (T : ops) := Quat { q_w : scalar T; q_v : vec3 T }.
Arguments Quat {T}.
Arguments q_w {T}.
Arguments q_v {T}.
Record rotation (T : ops) := Rotation { r_axis : vec3 T; r_angle : scalar T }.
Arguments Rotation {T}.
Arguments r_axis {T}.
Arguments r_angle {T}.

Section Quat.
  Variable T : ops.
  Notation F := (scalar T).
  Notation "x + y" := (add T x y).
  Notation "x * y" := (mul T x y).
  Notation "x - y" := (sub T x y).
  Notation "- x" := (opp T x).
  Notation "x / y" := (div T x y).
  Notation "0" := (zero T).
  Notation "1" := (one T).
  Definition two : F := 1 + 1.
  Notation "2" := two.

  (* core::square(): math.hpp:202-206 *)
  Definition square (x : F) : F := x * x.

  (* Operations on vectors: vector.hpp:467-496, 521-528, 582-610 *)
  Definition v_add (a b : vec3 T) : vec3 T := V3 (v_x a + v_x b) (v_y a + v_y b) (v_z a + v_z b).
  Definition v_sub (a b : vec3 T) : vec3 T := V3 (v_x a - v_x b) (v_y a - v_y b) (v_z a - v_z b).
  Definition v_opp (a : vec3 T) : vec3 T := V3 (- v_x a) (- v_y a) (- v_z a).
  Definition v_mul_r (a : vec3 T) (b : F) : vec3 T := V3 (v_x a * b) (v_y a * b) (v_z a * b).
  Definition v_mul_l (a : F) (b : vec3 T) : vec3 T := V3 (a * v_x b) (a * v_y b) (a * v_z b).
  Definition v_div (a : vec3 T) (b : F) : vec3 T := V3 (v_x a / b) (v_y a / b) (v_z a / b).
  (* sq_sum(), dot() by way of inner(), cross(): vector.hpp:547-561, 582-590, 613-622 *)
  Definition v_sq_sum (a : vec3 T) : F := 0 + square (v_x a) + square (v_y a) + square (v_z a).
  Definition v_dot (a b : vec3 T) : F := 0 + v_x a * v_x b + v_y a * v_y b + v_z a * v_z b.
  Definition v_cross (a b : vec3 T) : vec3 T :=
    V3 (v_y a * v_z b - v_z a * v_y b) (v_z a * v_x b - v_x a * v_z b) (v_x a * v_y b - v_y a * v_x b).

  (* Construction from a scalar: quaternion.hpp:111-116 *)
  Definition q_scalar (w : F) : quat T := Quat w (V3 0 0 0).
  (* operator+(), operator-(), operator-(), operator*(): quaternion.hpp:453-476 *)
  Definition q_add (a b : quat T) : quat T := Quat (q_w a + q_w b) (v_add (q_v a) (q_v b)).
  Definition q_sub (a b : quat T) : quat T := Quat (q_w a - q_w b) (v_sub (q_v a) (q_v b)).
  Definition q_opp (a : quat T) : quat T := Quat (- q_w a) (v_opp (q_v a)).
  Definition q_mul (a b : quat T) : quat T :=
    Quat (q_w a * q_w b - v_dot (q_v a) (q_v b)) (v_add (v_add (v_mul_r (q_v a) (q_w b)) (v_mul_l (q_w a) (q_v b))) (v_cross (q_v a) (q_v b))).
  (* sq_sum(), inv(): quaternion.hpp:521-531 *)
  Definition q_sq_sum (a : quat T) : F := square (q_w a) + v_sq_sum (q_v a).
  Definition q_inv (a : quat T) : quat T := let f := 1 / q_sq_sum a in Quat (f * q_w a) (v_mul_l (- f) (q_v a)).
  (* operator/(), conj(): quaternion.hpp:479-506 *)
  Definition q_div (a b : quat T) : quat T := q_mul a (q_inv b).
  Definition q_conj (a : quat T) : quat T := Quat (q_w a) (v_opp (q_v a)).
  Definition q_conj_by (a b : quat T) : quat T :=
    let sbw := square (q_w b) in
    let sbv := v_sq_sum (q_v b) in
    Quat ((sbw + sbv) * q_w a)
      (v_sub (v_add (v_mul_l (sbw - sbv) (q_v a)) (v_mul_l (2 * v_dot (q_v a) (q_v b)) (q_v b))) (v_mul_l (2 * q_w b) (v_cross (q_v a) (q_v b)))).
  Definition v_conj_by (a : vec3 T) (b : quat T) : vec3 T :=
    v_sub (v_add (v_mul_l (square (q_w b) - v_sq_sum (q_v b)) a) (v_mul_l (2 * v_dot a (q_v b)) (q_v b))) (v_mul_l (2 * q_w b) (v_cross a (q_v b))).

  (* to_rotation_matrix(), the rows: quaternion.hpp:416-443 *)
  Definition to_rotation_matrix (q : quat T) : vec3 T * vec3 T * vec3 T :=
    let s := 2 / q_sq_sum q in
    let w := q_w q in
    let x := v_x (q_v q) in
    let y := v_y (q_v q) in
    let z := v_z (q_v q) in
    let sx := s * x in
    let sy := s * y in
    let sz := s * z in
    let wsx := w * sx in
    let xsx := x * sx in
    let wsy := w * sy in
    let xsy := x * sy in
    let ysy := y * sy in
    let wsz := w * sz in
    let xsz := x * sz in
    let ysz := y * sz in
    let zsz := z * sz in
    (V3 (1 - ysy - zsz) (xsy - wsz) (xsz + wsy),
     V3 (xsy + wsz) (1 - xsx - zsz) (ysz - wsx),
     V3 (xsz - wsy) (ysz + wsx) (1 - xsx - ysy)).

  Variable f : funcs T.

  (* len(), normalize(): quaternion.hpp:509-518 *)
  Definition q_len (a : quat T) : F := f_sqrt f (q_sq_sum a).
  Definition q_normalize (a : quat T) : quat T := q_div a (q_scalar (q_len a)).

  (* from_axis_angle(), from_axis_cos_angle(): quaternion.hpp:389-399 *)
  Definition from_axis_angle (axis : vec3 T) (angle : F) : quat T := Quat (f_cos f (angle / 2)) (v_mul_r axis (f_sin f (angle / 2))).
  Definition from_axis_cos_angle (axis : vec3 T) (cos_angle : F) : quat T :=
    let k := (cos_angle + 1) / 2 in Quat (f_sqrt f k) (v_mul_l (f_sqrt f (k - cos_angle)) axis).

  (* to_axis_angle(): quaternion.hpp:402-413 *)
  Definition to_axis_angle (q : quat T) : rotation T :=
    let s := v_sq_sum (q_v q) in
    if negb (eqb T s 0) then
      let l := f_sqrt f s in
      Rotation (v_div (q_v q) l) (2 * f_atan2 f l (q_w q))
    else Rotation (V3 1 0 0) 0.

  (* from_proper_euler_angles(): quaternion.cpp:29-46 *)
  Definition from_proper_euler_angles (alpha beta gamma : F) : quat T :=
    let half := 1 / 2 in
    let ca := f_cos f (half * alpha) in
    let sa := f_sin f (half * alpha) in
    let cb := f_cos f (half * beta) in
    let sb := f_sin f (half * beta) in
    let cg := f_cos f (half * gamma) in
    let sg := f_sin f (half * gamma) in
    let cc := ca * cg in
    let ss := sa * sg in
    let sc := sa * cg in
    let cs := ca * sg in
    Quat ((cc - ss) * cb) (V3 ((cc + ss) * sb) ((sc - cs) * sb) ((sc + cs) * cb)).

  (* from_versor(), to_versor(), operators: rotation.hpp:300-311, 321-354 *)
  Definition from_versor (q : quat T) : rotation T := to_axis_angle q.
  Definition to_versor (r : rotation T) : quat T := from_axis_angle (r_axis r) (r_angle r).
  Definition r_add (a b : rotation T) : rotation T := from_versor (q_mul (to_versor b) (to_versor a)).
  Definition r_opp (a : rotation T) : rotation T := Rotation (r_axis a) (- r_angle a).
  Definition r_sub (a b : rotation T) : rotation T := r_add a (r_opp b).
  Definition r_mul_l (a : F) (b : rotation T) : rotation T := Rotation (r_axis b) (a * r_angle b).
  Definition r_mul_r (a : rotation T) (b : F) : rotation T := Rotation (r_axis a) (r_angle a * b).
  Definition r_div (a : rotation T) (b : F) : rotation T := Rotation (r_axis a) (r_angle a / b).
End Quat.
