(* What key bindings must do (src/archon/render/engine.hpp:266-312, src/archon/render/impl/key_bindings.hpp:49-75,
   src/archon/render/key_binding_support.hpp:115-145, 170-195), in terms of a log of everything that has happened, the latest first. *)
From Coq Require Import List ZArith Bool Sorted.
From Verif Require Import KeyBindModel.
Import ListNotations.
Open Scope Z_scope.

(* Handlers do not bind keys *)
Definition quiet (e : henv) : Prop := forall n h d, binds e n h d = [].

Definition log := list entry.

(* Is an interrupted blur operation in progress? *)
Fixpoint blurring (l : log) : bool :=
  match l with
  | [] => false
  | en :: l => match en_event en with Blur => negb (en_ok en) | Resume => blurring l && negb (en_ok en) | _ => blurring l end
  end.

(* The handler that is bound to a key in a modifier mode for a number of presses *)
Fixpoint bound (l : log) (k : key) (mode mult : Z) : option Z :=
  match l with
  | [] => None
  | en :: l =>
    match en_event en with
    | Bind b => if en_ok en && (same_key (b_key b) k && ((b_mode b =? mode) && (b_mult b =? mult))) then Some (b_handler b) else bound l k mode mult
    | _ => bound l k mode mult
    end
  end.
(* Is the key bound at all, and the greatest number of presses for which it is bound *)
Fixpoint has_binding (l : log) (k : key) : bool :=
  match l with
  | [] => false
  | en :: l => match en_event en with Bind b => en_ok en && same_key (b_key b) k | _ => false end || has_binding l k
  end.
Fixpoint most (l : log) (k : key) : Z :=
  match l with
  | [] => 0
  | en :: l => match en_event en with Bind b => if en_ok en && same_key (b_key b) k then Z.max (b_mult b) (most l k) else most l k | _ => most l k end
  end.

(* What is known about a key is forgotten when it is bound, and when the window loses focus *)
Definition forgets (en : entry) (l : log) (k : key) : bool :=
  let released := en_ok en || existsb (fun c => same_key (c_key c) k) (en_calls en) in
  match en_event en with
  | Bind b => en_ok en && same_key (b_key b) k
  | Blur => released
  | Resume => blurring l && released
  | _ => false
  end.

(* Is the key held down? *)
Fixpoint held (l : log) (k : key) : bool :=
  match l with
  | [] => false
  | en :: l =>
    if forgets en l k then false else
    match en_event en with
    | Down k_2 _ => if same_key k_2 k then has_binding l k else held l k
    | Up k_2 _ => if same_key k_2 k then false else held l k
    | _ => held l k
    end
  end.

(* The presses of a key: the times and the modifier modes, the latest first *)
Fixpoint presses (l : log) (k : key) : list (Z * Z) :=
  match l with
  | [] => []
  | en :: l =>
    if forgets en l k then [] else
    match en_event en with
    | Down k_2 t => if same_key k_2 k && (has_binding l k && negb (held l k)) then (t, en_mode en) :: presses l k else presses l k
    | _ => presses l k
    end
  end.

(* The multiplicity of the latest press: a press counts together with the previous one if it comes soon after, in the same modifier mode, and
   unless the previous one has the greatest multiplicity already *)
Fixpoint multiplicity_of (most : Z) (ps : list (Z * Z)) : Z :=
  match ps with
  | [] => 0
  | (t, m) :: ps =>
    match ps with
    | [] => 1
    | (t_2, m_2) :: _ =>
      if (m =? m_2) && (t - t_2 <=? 250) && (multiplicity_of most ps <? most) then multiplicity_of most ps + 1 else 1
    end
  end.

(* The handler that is to be called when the key is pressed *)
Definition selected (l : log) (k : key) (t mode : Z) : option Z :=
  if has_binding l k && negb (held l k) then bound l k mode (multiplicity_of (most l k) ((t, mode) :: presses l k)) else None.

(* The handler that has been called because the key was pressed, and is to be called when it is released *)
Fixpoint active (l : log) (k : key) : option Z :=
  match l with
  | [] => None
  | en :: l =>
    if forgets en l k then None else
    match en_event en with
    | Down k_2 t => if same_key k_2 k && negb (held l k) then selected l k t (en_mode en) else active l k
    | Up k_2 _ => if same_key k_2 k then None else active l k
    | _ => active l k
    end
  end.

(* All calls so far, and the modifier mode that results from them *)
Definition all_calls (l : log) : list call := flat_map en_calls (rev l).
Definition mode_after (e : henv) (cs : list call) : Z := fold_left (fun m c => sets_mode e (c_handler c) (c_down c) m) cs 0.

(* The number of handlers that have been registered *)
Fixpoint registered (l : log) : Z :=
  match l with
  | [] => 0
  | en :: l => match en_event en with Register => if en_ok en then registered l + 1 else registered l | _ => registered l end
  end.

(* exactly one call of a handler, or none *)
Definition calls_one (cs : list call) (ok : bool) (k : key) (h : option Z) (down : bool) : Prop :=
  match h with
  | Some h => cs = [Call k h down ok]
  | None => cs = [] /\ ok = true
  end.

(* When the window loses focus, the handlers of all keys are called, in the order of keys, until one of them interrupts *)
Definition calls_released (l : log) (cs : list call) (ok : bool) : Prop :=
  exists rest,
    (forall k h, active l k = Some h <-> In (k, h) (map (fun c => (c_key c, c_handler c)) cs ++ rest)) /\
    StronglySorted (fun a b => key_less (fst a) (fst b) = true) (map (fun c => (c_key c, c_handler c)) cs ++ rest) /\
    Forall (fun c => c_down c = false) cs /\
    if ok then rest = [] /\ Forall (fun c => c_proceed c = true) cs
    else exists before c, cs = before ++ [c] /\ c_proceed c = false /\ Forall (fun c => c_proceed c = true) before.

(* What the event must lead to *)
Definition fits (e : henv) (l : log) (en : entry) : Prop :=
  en_mode en = mode_after e (all_calls l) /\
  match en_event en with
  | Register => en_calls en = [] /\ (en_ok en = true <-> registered l <= int_max)
  | Bind b => en_calls en = [] /\ (en_ok en = true <-> 0 <= b_handler b < registered l)
  | Down k t => calls_one (en_calls en) (en_ok en) k (selected l k t (en_mode en)) true
  | Up k _ => calls_one (en_calls en) (en_ok en) k (if held l k then active l k else None) false
  | Blur => calls_released l (en_calls en) (en_ok en)
  | Resume => if blurring l then calls_released l (en_calls en) (en_ok en) else en_calls en = [] /\ en_ok en = true
  end.

(* Presses and releases are not reported while a blur operation is in progress.  Times are not negative. *)
Definition allowed (l : log) (ev : event) : Prop :=
  match ev with
  | Down _ t | Up _ t => blurring l = false /\ 0 <= t <= time_max
  | Blur => blurring l = false
  | Bind b => b_mult b <= int_max
  | Register | Resume => True
  end.

Inductive obeys (e : henv) : log -> list event -> list (option entry) -> Prop :=
| obeys_end : forall l, obeys e l [] []
| obeys_illegal : forall l ev evs outs, ~ allowed l ev -> obeys e l (ev :: evs) outs
| obeys_step : forall l ev evs en outs, allowed l ev -> en_event en = ev -> fits e l en -> obeys e (en :: l) evs outs ->
    obeys e l (ev :: evs) (Some en :: outs).

(* ---- balance ---- *)

(* The calls for a key alternate between down and up, and up is for the same handler as down.  The handler that is still to be called *)
Fixpoint balance (cs : list call) (k : key) (open : option Z) : option (option Z) :=
  match cs with
  | [] => Some open
  | c :: cs =>
    if same_key (c_key c) k then
      match open with
      | None => if c_down c then balance cs k (Some (c_handler c)) else None
      | Some h => if negb (c_down c) && (c_handler c =? h) then balance cs k None else None
      end
    else balance cs k open
  end.

(* No key is bound while a handler is to be called when it is released *)
Fixpoint undisturbed (l : log) : Prop :=
  match l with
  | [] => True
  | en :: l => match en_event en with Bind b => en_ok en = true -> active l (b_key b) = None | _ => True end /\ undisturbed l
  end.

(* Only what is allowed has happened *)
Fixpoint lawful (l : log) : Prop :=
  match l with
  | [] => True
  | en :: l => allowed l (en_event en) /\ lawful l
  end.

(* ---- modifier keys ---- *)

(* The modifier (0 for shift, 1 for control, 2 for alt, 3 for meta) that a key is.  When the keys are distinct, the order does not matter. *)
Definition modifier_of (left_key right_key : Z -> key) (k : key) : option Z :=
  find (fun h => same_key (right_key h) k || same_key (left_key h) k) [3; 2; 1; 0].

(* Is the key pressed down, as far as the engine has been told?  When the window loses focus, all keys count as released. *)
Fixpoint pressed (l : log) (k : key) : bool :=
  match l with
  | [] => false
  | en :: l =>
    match en_event en with
    | Down k_2 _ => same_key k_2 k || pressed l k
    | Up k_2 _ => negb (same_key k_2 k) && pressed l k
    | Blur => false
    | _ => pressed l k
    end
  end.

(* A modifier mode is in effect when the modifier keys, that are currently pressed down, is exactly the set for which the corresponding bit position
   are 1 in the value of the modifier mode: key_binding_support.hpp:129-131 *)
Definition right_mode (left_key right_key : Z -> key) (l : log) (mode : Z) : Prop :=
  forall h, 0 <= h -> (Z.testbit mode h = true <-> exists k, modifier_of left_key right_key k = Some h /\ pressed l k = true).

(* The application leaves modifier keys and their handlers alone *)
Definition leaves_modifiers (left_key right_key : Z -> key) (ev : event) : Prop :=
  match ev with Bind b => modifier_of left_key right_key (b_key b) = None /\ ~ 0 <= b_handler b <= 3 | _ => True end.

(* No modifier key is pressed while another one is *)
Fixpoint one_modifier (left_key right_key : Z -> key) (l : log) : Prop :=
  match l with
  | [] => True
  | en :: l =>
    match en_event en with
    | Down k _ =>
      modifier_of left_key right_key k <> None -> forall k_2, modifier_of left_key right_key k_2 <> None -> pressed l k_2 = true -> k_2 = k
    | _ => True
    end /\ one_modifier left_key right_key l
  end.
