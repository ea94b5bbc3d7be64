(* Model of render::impl::FiniteSequenceMemory
   (/repo/src/archon/render/impl/finite_sequence_memory.hpp), of
   render::impl::FiniteCurveMemory (/repo/src/archon/render/impl/finite_curve_memory.hpp),
   and of the event handling of render::VirtualTrackball
   (/repo/src/archon/render/virt_trackball.hpp and virt_trackball.cpp).

   `long`, `std::size_t` and the representation type of std::chrono::milliseconds are 64
   bits wide.  Results are `option`: None is undefined behaviour (access outside the
   buffer, division by zero, signed overflow), a violated assertion, or a size_t
   subtraction that would wrap around. *)

From Coq Require Import ZArith Bool List.
From Verif Require Import CInt IntModel ArrLib.
Import ListNotations.
Open Scope nat_scope.

Definition t_long : ity := ITy 64 true.
Definition t_size : ity := ITy 64 false.

(* size_t subtraction; wrapping around is a distinct outcome *)
Definition usub (a b : nat) : option nat := if Nat.leb b a then Some (a - b) else None.

(* --- FiniteSequenceMemory ------------------------------------------------------- *)

Section Fsm.
Variable T : Type.
Variable dflt : T.

(* members: finite_sequence_memory.hpp:57-61 *)
Record fsm := Fsm { f_buffer : list T; f_capacity : nat; f_size : nat; f_offset : nat }.

(* constructor: finite_sequence_memory.hpp:74-80.  make_unique<T[]> value-initializes the
   elements.  None: std::overflow_error from int_cast<ptrdiff_t>; failure to allocate is
   not modelled. *)
Definition fsm_make (capacity : Z) : option fsm :=
  if can_int_cast t_long t_size capacity then
    Some (Fsm (repeat dflt (Z.to_nat capacity)) (Z.to_nat capacity) 0 0)
  else None.

(* push_back: finite_sequence_memory.hpp:84-96 *)
Definition fsm_push_back (m : fsm) (v : T) : option fsm :=
  if Nat.eqb (f_size m) (f_capacity m) then
    let? buffer := set_nth (f_buffer m) (f_offset m) v in
    let offset := f_offset m + 1 in
    let offset := if Nat.eqb offset (f_size m) then 0 else offset in
    Some (Fsm buffer (f_capacity m) (f_size m) offset)
  else if Nat.eqb (f_offset m) 0 then
    let? buffer := set_nth (f_buffer m) (f_size m) v in
    Some (Fsm buffer (f_capacity m) (f_size m + 1) (f_offset m))
  else None.

(* clear: finite_sequence_memory.hpp:100-104 *)
Definition fsm_clear (m : fsm) : fsm := Fsm (f_buffer m) (f_capacity m) 0 0.

(* empty: finite_sequence_memory.hpp:115-118 *)
Definition fsm_empty (m : fsm) : bool := Nat.eqb (f_size m) 0.

(* operator[]: finite_sequence_memory.hpp:122-126 *)
Definition fsm_at (m : fsm) (i : nat) : option T :=
  let? top := usub (f_size m) (f_offset m) in
  let? j := (if Nat.ltb i top then Some (f_offset m + i) else usub i top) in
  nth_error (f_buffer m) j.

End Fsm.
Arguments Fsm {T}.
Arguments f_buffer {T}. Arguments f_capacity {T}. Arguments f_size {T}. Arguments f_offset {T}.
Arguments fsm_make {T}. Arguments fsm_push_back {T}. Arguments fsm_clear {T}.
Arguments fsm_empty {T}. Arguments fsm_at {T}.

(* --- FiniteCurveMemory ---------------------------------------------------------- *)

Section Fcm.
Variable V : Type.
(* the value-initialized T *)
Variable dflt : V.
(* core::lerp_a(x_1, y_1, x_2, y_2, x): core/math.hpp:216-221.  Floating point, kept
   abstract. *)
Variable lerp_a : Z -> V -> Z -> V -> Z -> V.

(* Sample: finite_curve_memory.hpp:53-56 *)
Definition sample : Type := (V * Z)%type.
Definition s_value (s : sample) : V := fst s.
Definition s_millis (s : sample) : Z := snd s.

(* members: finite_curve_memory.hpp:58-60 *)
Record fcm := Fcm { c_samples : fsm sample; c_per_barrier : Z; c_last_barrier : Z }.

(* constructor: finite_curve_memory.hpp:74-80.  `max_samples - 1` is a size_t
   subtraction and wraps around for zero. *)
Definition fcm_make (millis_back max_samples : Z) : option fcm :=
  let? samples := fsm_make (dflt, 0%Z) max_samples in
  let? per_barrier := int_div_round_up t_long t_size millis_back
                        (wrap t_size (max_samples - 1)) in
  Some (Fcm samples per_barrier 0).

(* add_value: finite_curve_memory.hpp:83-91 *)
Definition fcm_add_value (m : fcm) (v : V) (millis : Z) : option fcm :=
  let? q := cdiv (t_long, millis) (t_long, c_per_barrier m) in
  let barrier_index := snd q in
  if fsm_empty (c_samples m) || Z.ltb (c_last_barrier m) barrier_index then
    let? samples := fsm_push_back (c_samples m) (v, millis) in
    Some (Fcm samples (c_per_barrier m) barrier_index)
  else Some m.

(* clear: finite_curve_memory.hpp:94-98 *)
Definition fcm_clear (m : fcm) : fcm :=
  Fcm (fsm_clear (c_samples m)) (c_per_barrier m) (c_last_barrier m).

(* lower_bound: finite_curve_memory.hpp:125-142.  The loop shrinks `size`; the fuel is
   more than the initial size, and running out of it is an error (None). *)
Fixpoint lb_loop (fuel : nat) (m : fsm sample) (millis : Z) (i size : nat) : option nat :=
  match fuel with
  | O => None
  | S fuel =>
    if Nat.ltb 0 size then
      let half := Nat.div size 2 in
      let mid := i + half in
      let? s := fsm_at m mid in
      if Z.ltb (s_millis s) millis then
        let? size := usub size (half + 1) in
        lb_loop fuel m millis (mid + 1) size
      else lb_loop fuel m millis i half
    else Some i
  end.
Definition fcm_lower_bound (m : fcm) (millis : Z) : option nat :=
  lb_loop (S (f_size (c_samples m))) (c_samples m) millis 0 (f_size (c_samples m)).

(* get_value: finite_curve_memory.hpp:101-112 *)
Definition fcm_get_value (m : fcm) (millis : Z) : option V :=
  let? i := fcm_lower_bound m millis in
  if Nat.eqb i (f_size (c_samples m)) then Some dflt
  else
    let? b := fsm_at (c_samples m) i in
    if Z.eqb (s_millis b) millis || Nat.eqb i 0 then Some (s_value b)
    else
      let? a := fsm_at (c_samples m) (i - 1) in
      Some (lerp_a (s_millis a) (s_value a) (s_millis b) (s_value b) millis).

(* --- VirtualTrackball ----------------------------------------------------------- *)

(* `math::len(first - pos) < 4` of virt_trackball.cpp:119, floating point, kept
   abstract *)
Variable near : V -> V -> bool.

(* g_millis_back, g_max_samples: virt_trackball.cpp:36-41 *)
Definition g_millis_back : Z := 100.
Definition g_max_samples : Z := 16.

(* The members that take part in the event handling: virt_trackball.hpp:214-229.
   Orientations, the spin itself, the viewport and the steady clock are not modelled.
   The members that the default constructor leaves indeterminate are None. *)
Record tball := Tball {
  t_acquired : bool;
  t_no_track_yet : option bool;
  t_first_time : option Z;
  t_first_pos : V;
  t_track_pos : V;
  t_track_millis : option Z;
  t_mem : fcm }.

(* constructor: virt_trackball.cpp:46-49 *)
Definition tball_make : option tball :=
  let? mem := fcm_make g_millis_back g_max_samples in
  Some (Tball false None None dflt dflt None mem).

(* acquire: virt_trackball.hpp:255-262 *)
Definition tball_acquire (b : tball) : tball :=
  if t_acquired b then b
  else Tball true (Some true) (t_first_time b) (t_first_pos b) (t_track_pos b)
         (t_track_millis b) (t_mem b).

(* set_orientation, set_spin: virt_trackball.hpp:265-279; both leave the acquired state *)
Definition tball_leave (b : tball) : tball :=
  Tball false (t_no_track_yet b) (t_first_time b) (t_first_pos b) (t_track_pos b)
    (t_track_millis b) (t_mem b).

(* track: virt_trackball.cpp:69-94.  The conversion of the pixel position to a Vector2 is
   the caller's. *)
Definition tball_track (b : tball) (pos : V) (time : Z) : option tball :=
  if t_acquired b then
    let? no_track_yet := t_no_track_yet b in
    if no_track_yet then
      let? mem := fcm_add_value (fcm_clear (t_mem b)) pos 0 in
      Some (Tball true (Some false) (Some time) pos pos (Some 0%Z) mem)
    else
      let? first := t_first_time b in
      let? d := csub (t_long, time) (t_long, first) in
      let? mem := fcm_add_value (t_mem b) pos (snd d) in
      Some (Tball true (Some false) (Some first) (t_first_pos b) pos (Some (snd d)) mem)
  else Some b.

(* What release() does to the spin: nothing (not acquired), `m_spin.angle = 0`, or
   m_spin = calc_rotation(get_ball_point(pos), get_ball_point(m_track_pos)) scaled by
   1000.0 / millis. *)
Inductive released :=
| Ignored
| Stopped
| Spun (pos : V) (millis : Z).

(* release: virt_trackball.cpp:97-134 *)
Definition tball_release (b : tball) : option (tball * released) :=
  if t_acquired b then
    let b' := tball_leave b in
    let? no_track_yet := t_no_track_yet b in
    if no_track_yet then Some (b', Stopped)
    else
      let? track_millis := t_track_millis b in
      if Z.ltb track_millis 200 && near (t_first_pos b) (t_track_pos b) then Some (b', Stopped)
      else
        let millis := g_millis_back in
        let millis := if Z.ltb track_millis millis then track_millis else millis in
        let? when := csub (t_long, track_millis) (t_long, millis) in
        let? pos := fcm_get_value (t_mem b) (snd when) in
        Some (b', Spun pos millis)
  else Some (b, Ignored).

End Fcm.
Arguments Fcm {V}.
Arguments c_samples {V}. Arguments c_per_barrier {V}. Arguments c_last_barrier {V}.
Arguments s_value {V}. Arguments s_millis {V}.
Arguments fcm_make {V}. Arguments fcm_add_value {V}. Arguments fcm_clear {V}.
Arguments lb_loop {V}. Arguments fcm_lower_bound {V}. Arguments fcm_get_value {V}.
Arguments Tball {V}.
Arguments t_acquired {V}. Arguments t_no_track_yet {V}. Arguments t_first_time {V}.
Arguments t_first_pos {V}. Arguments t_track_pos {V}. Arguments t_track_millis {V}.
Arguments t_mem {V}.
Arguments Ignored {V}. Arguments Stopped {V}. Arguments Spun {V}.
Arguments tball_make {V}. Arguments tball_acquire {V}. Arguments tball_leave {V}.
Arguments tball_track {V}. Arguments tball_release {V}.
