(* Independent specification of the sequence memory, of the curve memory and of the event
   handling of the virtual trackball.  Nothing here mentions the model. *)

From Coq Require Import ZArith Bool List.
Import ListNotations.
Open Scope Z_scope.

(* What a client does to a memory. *)
Inductive mem_op (T : Type) :=
| Push (v : T)
| Clear.
Arguments Push {T}. Arguments Clear {T}.

(* the values pushed since the last time the memory was cleared, oldest first *)
Definition since_clear {T} (ops : list (mem_op T)) : list T :=
  fold_left (fun acc op => match op with Push v => acc ++ [v] | Clear => [] end) ops [].

(* the last n elements of l, or all of them if there are fewer *)
Definition lastn {T} (n : nat) (l : list T) : list T := skipn (length l - n) l.

(* --- curves --------------------------------------------------------------------- *)

Definition nondecreasing {V} (h : list (V * Z)) : Prop :=
  forall i j a b, (i <= j)%nat -> nth_error h i = Some a -> nth_error h j = Some b ->
    snd a <= snd b.

(* every prefix of the calls has a history in non-decreasing order *)
Definition in_order {V} (ops : list (mem_op (V * Z))) : Prop :=
  forall pre post, ops = pre ++ post -> nondecreasing (since_clear pre).

(* Time is divided into slots of `per` milliseconds (the slot around zero extends to both
   sides).  The samples are those elements of the history that do not lie in the same slot
   as the element before. *)
Definition slot (per t : Z) : Z := Z.quot t per.
Fixpoint samples_after {V} (per : Z) (prev : option Z) (h : list (V * Z)) : list (V * Z) :=
  match h with
  | [] => []
  | (v, t) :: h =>
    let rest := samples_after per (Some t) h in
    match prev with
    | Some p => if slot per p =? slot per t then rest else (v, t) :: rest
    | None => (v, t) :: rest
    end
  end.
Definition samples_of {V} (per : Z) (h : list (V * Z)) : list (V * Z) := samples_after per None h.

(* r is the value at time t of the curve that is given by a list of samples *)
Definition curve_value {V} (dflt : V) (lerp : Z -> V -> Z -> V -> Z -> V)
    (l : list (V * Z)) (t : Z) (r : V) : Prop :=
  ((forall s, In s l -> snd s < t) /\ r = dflt) \/
  (exists s rest, l = s :: rest /\ t <= snd s /\ r = fst s) \/
  (exists pre a b post, l = pre ++ a :: b :: post /\ snd a < t <= snd b /\
     ((t = snd b /\ r = fst b) \/
      (t < snd b /\ r = lerp (snd a) (fst a) (snd b) (fst b) t))).

(* per is the smallest number such that per * intervals >= back *)
Definition smallest_per (back intervals per : Z) : Prop :=
  back <= per * intervals /\ forall p, back <= p * intervals -> per <= p.

(* --- trackball ------------------------------------------------------------------ *)

(* What the user interface tells the trackball; Leave is set_orientation() or set_spin() *)
Inductive tb_event (V : Type) :=
| Acquire
| Track (pos : V) (time : Z)
| Leave
| Release.
Arguments Acquire {V}. Arguments Track {V}. Arguments Leave {V}. Arguments Release {V}.

(* the tracked positions of the current grab: None if there is no grab *)
Definition grab_step {V} (g : option (list (V * Z))) (e : tb_event V) : option (list (V * Z)) :=
  match e, g with
  | Acquire, None => Some []
  | Track pos time, Some h => Some (h ++ [(pos, time)])
  | Leave, _ => None
  | Release, _ => None
  | _, _ => g
  end.
Definition grab {V} (es : list (tb_event V)) : option (list (V * Z)) := fold_left grab_step es None.

(* the times of a grab relative to its first event *)
Definition rebased {V} (h : list (V * Z)) : list (V * Z) :=
  match h with
  | [] => []
  | (_, t0) :: _ => map (fun s => (fst s, snd s - t0)) h
  end.

(* the positions of a grab are in order, and their times are representable *)
Definition grab_ok {V} (g : option (list (V * Z))) : Prop :=
  match g with
  | None => True
  | Some h => nondecreasing h /\ forall s, In s h -> 0 <= snd s < 2 ^ 63
  end.
