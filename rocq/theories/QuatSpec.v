(* Independent specification for quaternions and rotations: Hamilton's product in terms of the four components, rotation about an axis (Rodrigues'
   formula), and what is assumed about the functions of the standard library for particular arguments *)
From Verif Require Import MatrixModel QuatModel.

Section Spec.
  Variable T : ops.
  Notation F := (scalar T).
  Notation "x + y" := (add T x y).
  Notation "x * y" := (mul T x y).
  Notation "x - y" := (sub T x y).
  Notation "- x" := (opp T x).
  Notation "0" := (zero T).
  Notation "1" := (one T).

  (* a + bi + cj + dk, with ii = jj = kk = ijk = -1 *)
  Definition quaternion (a b c d : F) : quat T := Quat a (V3 b c d).
  Definition hamilton (p q : quat T) : quat T :=
    let 'Quat a (V3 b c d) := p in
    let 'Quat e (V3 f g h) := q in
    quaternion (a * e - b * f - c * g - d * h) (a * f + b * e + c * h - d * g) (a * g - b * h + c * e + d * f) (a * h + b * g - c * f + d * e).
  Definition times (k : F) (q : quat T) : quat T := let 'Quat a (V3 b c d) := q in quaternion (k * a) (k * b) (k * c) (k * d).
  Definition norm (q : quat T) : F := let 'Quat a (V3 b c d) := q in a * a + b * b + c * c + d * d.

  (* vectors *)
  Definition scaled (k : F) (v : vec3 T) : vec3 T := V3 (k * v_x v) (k * v_y v) (k * v_z v).
  Definition sum_of (a b : vec3 T) : vec3 T := V3 (v_x a + v_x b) (v_y a + v_y b) (v_z a + v_z b).
  Definition scalar_product (a b : vec3 T) : F := v_x a * v_x b + v_y a * v_y b + v_z a * v_z b.
  Definition vector_product (a b : vec3 T) : vec3 T :=
    V3 (v_y a * v_z b - v_z a * v_y b) (v_z a * v_x b - v_x a * v_z b) (v_x a * v_y b - v_y a * v_x b).

  (* v rotated about a unit vector by the angle whose cosine and sine are c and s *)
  Definition rotated (axis : vec3 T) (c s : F) (v : vec3 T) : vec3 T :=
    sum_of (sum_of (scaled c v) (scaled s (vector_product axis v))) (scaled ((1 - c) * scalar_product axis v) axis).

  (* matrices as rows *)
  Definition mat := (vec3 T * vec3 T * vec3 T)%type.
  Definition apply (m : mat) (v : vec3 T) : vec3 T := let '(a, b, c) := m in V3 (scalar_product a v) (scalar_product b v) (scalar_product c v).
  Definition transposed (m : mat) : mat := let '(a, b, c) := m in (V3 (v_x a) (v_x b) (v_x c), V3 (v_y a) (v_y b) (v_y c), V3 (v_z a) (v_z b) (v_z c)).
  Definition product (m n : mat) : mat :=
    let '(a, b, c) := m in let n := transposed n in (apply n a, apply n b, apply n c).
  Definition identity : mat := (V3 1 0 0, V3 0 1 0, V3 0 0 1).
  Definition determinant (m : mat) : F := let '(a, b, c) := m in scalar_product a (vector_product b c).

  (* The functions are right for particular arguments *)
  Variable f : funcs T.
  Definition root_at (x : F) : Prop := f_sqrt f x * f_sqrt f x = x.
  Definition circle_at (x : F) : Prop := f_cos f x * f_cos f x + f_sin f x * f_sin f x = 1.
  Definition polar_at (y x r : F) : Prop := r * f_cos f (f_atan2 f y x) = x /\ r * f_sin f (f_atan2 f y x) = y.
  Definition even_odd_at (x : F) : Prop := f_cos f (- x) = f_cos f x /\ f_sin f (- x) = - f_sin f x.
  Definition zero_right : Prop := f_cos f 0 = 1 /\ f_sin f 0 = 0.
  (* all that the conversion of a quaternion to axis and angle needs *)
  Definition convertible (q : quat T) : Prop :=
    let 'Quat a (V3 b c d) := q in
    let s := b * b + c * c + d * d in
    root_at s /\ root_at (a * a + s) /\ polar_at (f_sqrt f s) a (f_sqrt f (a * a + s)) /\ zero_right.
End Spec.

(* Rotations *)
Section Rotations.
  Variable T : ops.
  Variable f : funcs T.
  Notation F := (scalar T).
  (* The vector that a rotation turns a vector into *)
  Definition turned (r : rotation T) (v : vec3 T) : vec3 T := rotated T (r_axis r) (f_cos f (r_angle r)) (f_sin f (r_angle r)) v.
  Definition unit_axis (r : rotation T) : Prop := scalar_product T (r_axis r) (r_axis r) = one T.
  (* cosine and sine are right for an angle and for half of it *)
  Definition angle_at (x : F) : Prop :=
    let h := div T x (add T (one T) (one T)) in
    let c := f_cos f h in
    let s := f_sin f h in
    circle_at T f h /\ f_cos f x = sub T (mul T c c) (mul T s s) /\ f_sin f x = mul T (add T (one T) (one T)) (mul T s c).
End Rotations.
