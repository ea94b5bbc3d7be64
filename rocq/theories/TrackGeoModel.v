(* Model of the geometry of the virtual trackball (src/archon/render/virt_trackball.hpp, src/archon/render/virt_trackball.cpp): radii, points on the
   ball, orientation and spin.  The state of the grab (acquired or not, tracked positions and times, curve memory) is the one of CurveMemModel.

   Simplifications: arithmetic is exact (see ops and funcs), time points of the steady clock are numbers of seconds, pixel positions and sizes are
   given as numbers, the interpolation of the curve memory and the test for a distance of less than 4 pixels are arbitrary functions. *)
From Coq Require Import ZArith.
From Verif Require Import MatrixModel QuatModel CurveMemModel ArrLib.

Section Geo.
  Variable T : ops.
  Variable f : funcs T.
  (* std::acos() *)
  Variable acos : scalar T -> scalar T.
  Variable lerp_a : Z -> scalar T * scalar T -> Z -> scalar T * scalar T -> Z -> scalar T * scalar T.
  Variable near : scalar T * scalar T -> scalar T * scalar T -> bool.
  Notation F := (scalar T).
  Notation vec2 := (F * F)%type.

  (* Conversion of an integer *)
  Fixpoint of_pos (p : positive) : F :=
    match p with
    | xH => one T
    | xO p => mul T (two T) (of_pos p)
    | xI p => add T (one T) (mul T (two T) (of_pos p))
    end.
  Definition of_int (z : Z) : F := match z with Z0 => zero T | Zpos p => of_pos p | Zneg p => opp T (of_pos p) end.

  (* Data members: virt_trackball.hpp:208-231.  g_grab is m_acquired, m_no_track_yet, m_first_track_time, m_first_track_pos, m_track_millis,
     m_track_pos, m_curve_mem.  m_first_track_point is not initialized by the constructor. *)
  Record ball := Ball {
    g_half : vec2; g_ratio : F; g_horz : F; g_vert : F;
    g_grab : tball vec2;
    g_release_time : F; g_base : rotation T; g_spin : rotation T;
    g_first_point : option (vec3 T) }.

  (* Rotation(): rotation.hpp:73-80 *)
  Definition no_rotation : rotation T := Rotation (V3 (one T) (zero T) (zero T)) (zero T).

  (* Constructor: virt_trackball.cpp:46-49.  The default of a time point is zero. *)
  Definition make : option ball :=
    let? grab := tball_make (zero T, zero T) in
    Some (Ball (one T, one T) (one T) (one T) (one T) grab (zero T) no_rotation no_rotation None).

  (* update_radii(): virt_trackball.hpp:288-293 *)
  Definition std_min (a b : F) : F := if lt T b a then b else a.
  Definition update_radii (b : ball) : ball :=
    let horz := std_min (fst (g_half b)) (div T (snd (g_half b)) (g_ratio b)) in
    Ball (g_half b) (g_ratio b) horz (mul T horz (g_ratio b)) (g_grab b) (g_release_time b) (g_base b) (g_spin b) (g_first_point b).

  (* set_viewport_size(), set_pixel_aspect_ratio(): virt_trackball.cpp:52-66 *)
  Definition set_viewport_size (b : ball) (width height : F) : ball :=
    update_radii (Ball (div T width (two T), div T height (two T)) (g_ratio b) (g_horz b) (g_vert b) (g_grab b) (g_release_time b) (g_base b) (g_spin b)
      (g_first_point b)).
  Definition set_pixel_aspect_ratio (b : ball) (ratio : F) : ball :=
    update_radii (Ball (g_half b) ratio (g_horz b) (g_vert b) (g_grab b) (g_release_time b) (g_base b) (g_spin b) (g_first_point b)).

  (* get_ball_point(): virt_trackball.hpp:313-328 *)
  Definition get_ball_point (b : ball) (pos : vec2) : vec3 T :=
    let px := div T (sub T (fst pos) (fst (g_half b))) (g_horz b) in
    let py := div T (sub T (snd (g_half b)) (snd pos)) (g_vert b) in
    let s := add T (add T (zero T) (square T px)) (square T py) in
    if lt T (one T) s then
      let px := div T px (f_sqrt f s) in
      let py := div T py (f_sqrt f s) in
      let s := one T in
      V3 px py (f_sqrt f (sub T (one T) s))
    else V3 px py (f_sqrt f (sub T (one T) s)).

  (* calc_rotation(): virt_trackball.hpp:331-339 *)
  Definition calc_rotation (a b : vec3 T) : rotation T :=
    let axis := v_cross T a b in
    let ss := v_sq_sum T axis in
    let dp := v_dot T a b in
    if andb (negb (eqb T ss (zero T))) (negb (lt T (one T) dp)) then Rotation (v_div T axis (f_sqrt f ss)) (acos dp)
    else no_rotation.

  (* get_free_orientation(), get_track_orientation(), get_orientation(): virt_trackball.hpp:282-285, 296-310 *)
  Definition get_free_orientation (b : ball) (time : F) : rotation T :=
    if eqb T (r_angle (g_spin b)) (zero T) then g_base b
    else
      let time_2 := sub T time (g_release_time b) in
      r_add T f (g_base b) (r_mul_l T time_2 (g_spin b)).
  Definition get_track_orientation (b : ball) : option (rotation T) :=
    let? no_track_yet := t_no_track_yet (g_grab b) in
    if negb no_track_yet then
      let? first := g_first_point b in
      Some (r_add T f (g_base b) (calc_rotation first (get_ball_point b (t_track_pos (g_grab b)))))
    else Some (g_base b).
  Definition get_orientation (b : ball) (now : F) : option (rotation T) :=
    if t_acquired (g_grab b) then get_track_orientation b else Some (get_free_orientation b now).

  (* acquire(), set_orientation(), set_spin(): virt_trackball.hpp:255-279 *)
  Definition acquire (b : ball) (now : F) : ball :=
    if t_acquired (g_grab b) then b
    else Ball (g_half b) (g_ratio b) (g_horz b) (g_vert b) (tball_acquire (g_grab b)) (g_release_time b) (get_free_orientation b now) (g_spin b) (g_first_point b).
  Definition set_orientation (b : ball) (rot : rotation T) : ball :=
    Ball (g_half b) (g_ratio b) (g_horz b) (g_vert b) (tball_leave (g_grab b)) (g_release_time b) rot (Rotation (r_axis (g_spin b)) (zero T)) (g_first_point b).
  Definition set_spin (b : ball) (spin : rotation T) (now : F) : option ball :=
    let? base := get_orientation b now in
    Some (Ball (g_half b) (g_ratio b) (g_horz b) (g_vert b) (tball_leave (g_grab b)) now base spin (g_first_point b)).

  (* track(): virt_trackball.cpp:69-94 *)
  Definition track (b : ball) (pos : vec2) (time : Z) : option ball :=
    let? grab := tball_track (g_grab b) pos time in
    if t_acquired (g_grab b) then
      let? no_track_yet := t_no_track_yet (g_grab b) in
      let first := if no_track_yet then Some (get_ball_point b pos) else g_first_point b in
      Some (Ball (g_half b) (g_ratio b) (g_horz b) (g_vert b) grab (g_release_time b) (g_base b) (g_spin b) first)
    else Some b.

  (* release(): virt_trackball.cpp:97-134 *)
  Definition release (b : ball) (now : F) : option ball :=
    let? (grab, out) := tball_release (zero T, zero T) lerp_a near (g_grab b) in
    if t_acquired (g_grab b) then
      let? no_track_yet := t_no_track_yet (g_grab b) in
      let stopped := Rotation (r_axis (g_spin b)) (zero T) in
      if no_track_yet then
        Some (Ball (g_half b) (g_ratio b) (g_horz b) (g_vert b) grab now (g_base b) stopped (g_first_point b))
      else
        let last_point := get_ball_point b (t_track_pos (g_grab b)) in
        let? first := g_first_point b in
        let base := r_add T f (g_base b) (calc_rotation first last_point) in
        let spin :=
          match out with
          | Spun pos millis => r_mul_r T (calc_rotation (get_ball_point b pos) last_point) (div T (of_int 1000) (of_int millis))
          | _ => stopped
          end in
        Some (Ball (g_half b) (g_ratio b) (g_horz b) (g_vert b) grab now base spin (g_first_point b))
    else Some b.
End Geo.

Arguments Ball {T}.
Arguments g_half {T}. Arguments g_ratio {T}. Arguments g_horz {T}. Arguments g_vert {T}. Arguments g_grab {T}.
Arguments g_release_time {T}. Arguments g_base {T}. Arguments g_spin {T}. Arguments g_first_point {T}.
