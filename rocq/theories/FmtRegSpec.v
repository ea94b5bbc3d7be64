(* What the registry of file formats is to do, given the list of formats in the order of registration *)
From Coq Require Import ZArith List.
Import ListNotations.

Section Formats.
Context {F : Type}.

(* f is the first format with the property, or there is none *)
Definition is_first (P : F -> Prop) (fs : list F) (res : option F) : Prop :=
  match res with
  | Some f => exists earlier later, fs = earlier ++ f :: later /\ P f /\ Forall (fun g => ~ P g) earlier
  | None => Forall (fun g => ~ P g) fs
  end.

(* formats once for each time that the key is in their list of keys, in the order of registration *)
Definition with_key (keys : F -> list (list Z)) (k : list Z) (fs : list F) : list F :=
  concat (map (fun f => repeat f (count_occ (list_eq_dec Z.eq_dec) (keys f) k)) fs).
End Formats.
