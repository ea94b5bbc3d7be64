(* Independent specification for the geometry of the trackball: laws of the functions of the standard library, events of the user interface, points
   on the unit sphere *)
From Coq Require Import ZArith List.
From Verif Require Import MatrixModel QuatModel QuatSpec CurveMemSpec TrackGeoModel ArrLib.
Import ListNotations.

(* Square root, cosine, sine, arcus tangent, and arcus cosine are right.  nonnegative x is written: not x < 0. *)
Record laws (T : ops) (f : funcs T) (acos : scalar T -> scalar T) : Prop := {
  l_root : forall x, lt T x (zero T) = false -> root_at T f x /\ lt T (f_sqrt f x) (zero T) = false;
  l_angle : forall x, angle_at T f x;
  l_even_odd : forall x, even_odd_at T f x;
  l_zero : zero_right T f;
  l_polar : forall y x r, lt T r (zero T) = false -> mul T r r = add T (mul T x x) (mul T y y) -> polar_at T f y x r;
  l_acos : forall x, lt T x (opp T (one T)) = false -> lt T (one T) x = false ->
    f_cos f (acos x) = x /\ f_sin f (acos x) = f_sqrt f (sub T (one T) (mul T x x)) }.

Section Spec.
  Variable T : ops.
  Notation F := (scalar T).

  Definition on_sphere (p : vec3 T) : Prop := scalar_product T p p = one T.
  Definition opposite (p : vec3 T) : vec3 T := V3 (opp T (v_x p)) (opp T (v_y p)) (opp T (v_z p)).

  (* What the user interface tells the trackball *)
  Inductive ui_event :=
  | Press (now : F)
  | Move (pos : F * F) (time : Z)
  | Let_go (now : F)
  | Orient (rot : rotation T)
  | Spin (rot : rotation T) (now : F)
  | Resize (width height : F)
  | Aspect (ratio : F).

  (* The part of it that concerns the grab *)
  Definition of_grab (e : ui_event) : list (tb_event (F * F)) :=
    match e with
    | Press _ => [Acquire]
    | Move pos time => [Track pos time]
    | Let_go _ => [Release]
    | Orient _ | Spin _ _ => [Leave]
    | Resize _ _ | Aspect _ => []
    end.
  Definition grabs (es : list ui_event) : list (tb_event (F * F)) := flat_map of_grab es.

  (* Positive sizes, axes of unit length, times of moves in order and representable *)
  Definition event_ok (e : ui_event) : Prop :=
    match e with
    | Orient r | Spin r _ => unit_axis T r
    | Resize w h => lt T (zero T) w = true /\ lt T (zero T) h = true
    | Aspect r => lt T (zero T) r = true
    | _ => True
    end.
  Definition events_ok (es : list ui_event) : Prop :=
    Forall event_ok es /\ forall pre post, es = pre ++ post -> grab_ok (grab (grabs pre)).

  (* Size of the viewport and aspect ratio of pixels, as last set *)
  Definition viewport (es : list ui_event) : F * F :=
    fold_left (fun v e => match e with Resize w h => (w, h) | _ => v end) es (add T (one T) (one T), add T (one T) (one T)).
  Definition aspect (es : list ui_event) : F := fold_left (fun v e => match e with Aspect r => r | _ => v end) es (one T).

  (* All of the calls *)
  Variable f : funcs T.
  Variable acos : F -> F.
  Variable lerp : Z -> F * F -> Z -> F * F -> Z -> F * F.
  Variable near : F * F -> F * F -> bool.
  Definition ui_step (b : option (ball T)) (e : ui_event) : option (ball T) :=
    let? b := b in
    match e with
    | Press now => Some (acquire T f b now)
    | Move pos time => track T f b pos time
    | Let_go now => release T f acos lerp near b now
    | Orient rot => Some (set_orientation T b rot)
    | Spin rot now => set_spin T f acos b rot now
    | Resize w h => Some (set_viewport_size T b w h)
    | Aspect r => Some (set_pixel_aspect_ratio T b r)
    end.
  Definition run (es : list ui_event) : option (ball T) := fold_left ui_step es (make T).
End Spec.

Arguments Press {T}. Arguments Move {T}. Arguments Let_go {T}. Arguments Orient {T}. Arguments Spin {T}. Arguments Resize {T}. Arguments Aspect {T}.
