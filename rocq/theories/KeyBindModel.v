(* Model of the key bindings of the render engine: src/archon/render/impl/key_bindings.hpp and src/archon/render/impl/key_bindings.cpp, and of
   the built-in handlers for modifier keys: src/archon/render/noinst/engine_impl.cpp:105-128, 539-592.

   FlatMap is modelled by what it does (see FlatMapModel for how): an association list, which for the key slots is in order of the keys.  The
   functions of handlers are modelled by their effects on the key bindings.  None stands for undefined behavior. *)
From Coq Require Import List ZArith Bool.
From Verif Require Import ArrLib.
Import ListNotations.
Open Scope Z_scope.

Definition int_max : Z := 2 ^ 31 - 1.
Definition time_max : Z := 2 ^ 63 - 1.

(* KeyBindings::KeyIdent: key_bindings.hpp:95-115.  The type (0 for a key code, 1 for a mouse button), and the code. *)
Definition key : Type := Z * Z.
Definition same_key (a b : key) : bool := (fst a =? fst b) && (snd a =? snd b).
(* operator<(): key_bindings.hpp:167-181 *)
Definition key_less (a b : key) : bool :=
  if fst a <? fst b then true else
  if fst a >? fst b then false else snd a <? snd b.

(* KeyBindings::KeySlot: key_bindings.cpp:48-76.  Handlers by modifier mode and multiplicity *)
Record slot := Slot {
  is_pressed : bool; multiplicity : Z; timestamp : Z; modifier_mode : Z;
  handlers : list (Z * Z * Z); max_multiplicity : Z; handler_index : Z
}.
Definition new_slot : slot := Slot false 0 0 0 [] 0 (-1).

(* FlatMap<Subkey, int>::find() and operator[] with assignment *)
Fixpoint find_handler (m : list (Z * Z * Z)) (mode mult : Z) : option Z :=
  match m with
  | [] => None
  | (mode_2, mult_2, h) :: m => if (mode_2 =? mode) && (mult_2 =? mult) then Some h else find_handler m mode mult
  end.
Fixpoint set_handler (m : list (Z * Z * Z)) (mode mult h : Z) : list (Z * Z * Z) :=
  match m with
  | [] => [(mode, mult, h)]
  | (mode_2, mult_2, h_2) :: m =>
    if (mode_2 =? mode) && (mult_2 =? mult) then (mode, mult, h) :: m else (mode_2, mult_2, h_2) :: set_handler m mode mult h
  end.

(* FlatMap<KeyIdent, KeySlot>::find(), modification of a slot, and operator[] *)
Fixpoint find_slot (m : list (key * slot)) (k : key) : option slot :=
  match m with
  | [] => None
  | (k_2, s) :: m => if same_key k_2 k then Some s else find_slot m k
  end.
Fixpoint put_slot (m : list (key * slot)) (k : key) (s : slot) : list (key * slot) :=
  match m with
  | [] => [(k, s)]
  | (k_2, s_2) :: m =>
    if same_key k_2 k then (k, s) :: m else
    if key_less k k_2 then (k, s) :: (k_2, s_2) :: m else (k_2, s_2) :: put_slot m k s
  end.

(* reset_key_state(): key_bindings.cpp:223-227 *)
Definition reset_key_state (s : slot) : slot :=
  Slot false 0 (timestamp s) (modifier_mode s) (handlers s) (max_multiplicity s) (handler_index s).

(* on_reconfigured(): key_bindings.cpp:209-220 *)
Definition on_reconfigured (s : slot) : slot :=
  let max := fold_left (fun max e => let '(_, mult, _) := e in if mult <=? max then max else mult) (handlers s) 0 in
  let s := reset_key_state s in
  Slot (is_pressed s) (multiplicity s) (timestamp s) (modifier_mode s) (handlers s) max (handler_index s).

(* A binding of a key: key, modifier mode, multiplicity, handler *)
Record binding := Binding { b_key : key; b_mode : Z; b_mult : Z; b_handler : Z }.

(* A call of a handler: the key, the handler, whether it is down, and whether the handler says that event processing can proceed *)
Record call := Call { c_key : key; c_handler : Z; c_down : bool; c_proceed : bool }.

(* key_bindings.hpp:82-88.  The number of handlers, and all calls of handlers so far *)
Record kb := KB { num_handlers : Z; key_slots : list (key * slot); mode : Z; on_blur_in_progress : bool; calls : list call }.
Definition kb_init : kb := KB 0 [] 0 false [].

(* What handlers do when they are called as number n: whether event processing can proceed, the new modifier mode, and bindings made *)
Record henv := HEnv { proceeds : nat -> Z -> bool -> bool; sets_mode : Z -> bool -> Z -> Z; binds : nat -> Z -> bool -> list binding }.

(* register_handler(): key_bindings.cpp:89-97.  No result if it throws. *)
Definition register_handler (s : kb) : option Z * kb :=
  if num_handlers s <=? int_max then (Some (num_handlers s), KB (num_handlers s + 1) (key_slots s) (mode s) (on_blur_in_progress s) (calls s))
  else (None, s).

(* bind_key(): key_bindings.cpp:100-110.  False if it throws. *)
Definition bind_key (s : kb) (b : binding) : bool * kb :=
  if (b_handler b <? 0) || (num_handlers s <=? b_handler b) then (false, s) else
  let sl := match find_slot (key_slots s) (b_key b) with Some sl => sl | None => new_slot end in
  let sl := Slot (is_pressed sl) (multiplicity sl) (timestamp sl) (modifier_mode sl) (set_handler (handlers sl) (b_mode b) (b_mult b) (b_handler b))
    (max_multiplicity sl) (handler_index sl) in
  (true, KB (num_handlers s) (put_slot (key_slots s) (b_key b) (on_reconfigured sl)) (mode s) (on_blur_in_progress s) (calls s)).

Section Handlers.
  Variable e : henv.

  (* Call of a handler: key_bindings.cpp:178-180, 195-197.  Bindings that it fails to make have no effect. *)
  Definition call_handler (s : kb) (k : key) (h : Z) (down : bool) : option (bool * kb) :=
    if (0 <=? h) && (h <? num_handlers s) then
      let n := length (calls s) in
      let s := KB (num_handlers s) (key_slots s) (sets_mode e h down (mode s)) (on_blur_in_progress s) (calls s ++ [Call k h down (proceeds e n h down)]) in
      Some (proceeds e n h down, fold_left (fun s b => snd (bind_key s b)) (binds e n h down) s)
    else None.

  Definition with_slot (s : kb) (k : key) (sl : slot) : kb := KB (num_handlers s) (put_slot (key_slots s) k sl) (mode s) (on_blur_in_progress s) (calls s).

  (* the condition for being connected to the previous press: key_bindings.cpp:142-145 *)
  Definition connected (s : kb) (sl : slot) (t : Z) : option bool :=
    if (0 <? multiplicity sl) && (mode s =? modifier_mode sl) then
      let d := t - timestamp sl in
      if (- time_max - 1 <=? d) && (d <=? time_max) then Some ((d <=? 250) && (multiplicity sl <? max_multiplicity sl)) else None
    else Some false.

  (* on_key<true>(): key_bindings.cpp:127-181 *)
  Definition on_keydown (s : kb) (k : key) (t : Z) : option (bool * kb) :=
    match find_slot (key_slots s) k with
    | None => Some (true, s)
    | Some sl =>
      if is_pressed sl then Some (true, s) else
      let? c := connected s sl t in
      let mult := (if c then multiplicity sl else 0) + 1 in
      if negb (mult <=? int_max) then None else
      match find_handler (handlers sl) (mode s) mult with
      | None => Some (true, with_slot s k (Slot true mult t (mode s) (handlers sl) (max_multiplicity sl) (-1)))
      | Some h => call_handler (with_slot s k (Slot true mult t (mode s) (handlers sl) (max_multiplicity sl) h)) k h true
      end
    end.

  (* on_key<false>(): key_bindings.cpp:127-181 *)
  Definition on_keyup (s : kb) (k : key) : option (bool * kb) :=
    match find_slot (key_slots s) k with
    | None => Some (true, s)
    | Some sl =>
      if negb (is_pressed sl) then Some (true, s) else
      let s := with_slot s k (Slot false (multiplicity sl) (timestamp sl) (modifier_mode sl) (handlers sl) (max_multiplicity sl) (handler_index sl)) in
      if handler_index sl <? 0 then Some (true, s) else call_handler s k (handler_index sl) false
    end.

  (* resume_incomplete_on_blur(): key_bindings.cpp:184-205.  If a slot is inserted meanwhile, the iterators are invalid. *)
  Fixpoint blur_loop (ks : list key) (s : kb) : option (bool * kb) :=
    match ks with
    | [] => Some (true, KB (num_handlers s) (key_slots s) (mode s) false (calls s))
    | k :: ks =>
      let? sl := find_slot (key_slots s) k in
      let s := with_slot s k (reset_key_state sl) in
      if negb (is_pressed sl) || (handler_index sl <? 0) then blur_loop ks s else
      let? (proceed, s_2) := call_handler s k (handler_index sl) false in
      if negb (Nat.eqb (length (key_slots s_2)) (length (key_slots s))) then None else
      if proceed then blur_loop ks s_2 else Some (false, s_2)
    end.
  Definition resume_incomplete_on_blur (s : kb) : option (bool * kb) :=
    if on_blur_in_progress s then blur_loop (map fst (key_slots s)) s else None.

  (* on_blur(): key_bindings.hpp:126-130 *)
  Definition on_blur (s : kb) : option (bool * kb) := resume_incomplete_on_blur (KB (num_handlers s) (key_slots s) (mode s) true (calls s)).

  (* resume_incomplete_on_blur_if_any(): key_bindings.hpp:133-138 *)
  Definition resume_if_any (s : kb) : option (bool * kb) := if on_blur_in_progress s then resume_incomplete_on_blur s else Some (true, s).

  (* What can happen.  Down and Up are key presses at a time. *)
  Inductive event := Register | Bind (b : binding) | Down (k : key) (t : Z) | Up (k : key) (t : Z) | Blur | Resume.

  (* true if event processing can proceed, and nothing is thrown *)
  Definition step (s : kb) (ev : event) : option (bool * kb) :=
    match ev with
    | Register => let (r, s) := register_handler s in Some (match r with Some _ => true | None => false end, s)
    | Bind b => Some (bind_key s b)
    | Down k t => on_keydown s k t
    | Up k _ => on_keyup s k
    | Blur => on_blur s
    | Resume => resume_if_any s
    end.

  (* A record of what happened: the event, the modifier mode before it, the calls of handlers, and the result *)
  Record entry := Entry { en_event : event; en_mode : Z; en_calls : list call; en_ok : bool }.
  Fixpoint run (s : kb) (evs : list event) : list (option entry) :=
    match evs with
    | [] => []
    | ev :: evs =>
      match step s ev with
      | Some (ok, s_2) => Some (Entry ev (mode s) (skipn (length (calls s)) (calls s_2)) ok) :: run s_2 evs
      | None => [None]
      end
    end.
End Handlers.

(* ---- the built-in handlers for modifier keys ---- *)

(* key_func_shift_modifier(), key_func_control_modifier(), key_func_alt_modifier(), key_func_meta_modifier(): engine_impl.cpp:539-592, as handlers
   0 to 3.  The other handlers do not set the modifier mode. *)
Definition modifier_bit (h : Z) : Z := if (0 <=? h) && (h <=? 3) then 2 ^ h else 0.
Definition builtin_sets_mode (h : Z) (down : bool) (m : Z) : Z := if down then Z.lor m (modifier_bit h) else Z.ldiff m (modifier_bit h).

(* What try_init() does to the key bindings first: engine_impl.cpp:105-128.  The two keys for each modifier are those with the specified codes. *)
Definition plain (k : key) (h : Z) : binding := Binding k 0 1 h.
Definition builtin_events (left_key right_key : Z -> key) : list event :=
  flat_map (fun h => [Register; Bind (plain (left_key h) h); Bind (plain (right_key h) h)]) [0; 1; 2; 3].
