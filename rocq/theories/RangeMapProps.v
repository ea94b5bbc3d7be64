(* C32, C33: RangeMap *)
From Coq Require Import List ZArith Bool Lia Sorted ZifyBool.
From Verif Require Import ArrLib RangeMapModel RangeMapSpec RangeMapProofs.
Import ListNotations.
Open Scope Z_scope.

(* C32: update is pointwise, for every well-formed map *)
Theorem range_map_update_pointwise :
  forall (T : Type) (kmin kmax : Z) (default : T) (f : T -> T) m first last,
  rm_ok kmin kmax m -> kmin <= first <= last -> last <= kmax ->
  exists m', rm_update kmin kmax default f m first last = Some m' /\ rm_ok kmin kmax m' /\
    forall k, rm_get m' k =
      if (first <=? k) && (k <=? last)
      then Some (f (match rm_get m k with Some v => v | None => default end))
      else rm_get m k.
Proof. intros. apply rm_update_spec; assumption. Qed.

(* C32: histories.  The mapping after any sequence of updates of an initially
   empty map is the pointwise composition. *)
Fixpoint updates {T} kmin kmax (default : T) (m : list (Z * (Z * T))) (us : list ((T -> T) * Z * Z))
  : option (list (Z * (Z * T))) :=
  match us with
  | [] => Some m
  | (f, a, b) :: us => let? m := rm_update kmin kmax default f m a b in updates kmin kmax default m us
  end.
Definition pointwise {T} (default : T) (g : option T) (us : list ((T -> T) * Z * Z)) (k : Z) : option T :=
  fold_left (fun g u => let '(f, a, b) := u in
               if (a <=? k) && (k <=? b) then Some (f (match g with Some v => v | None => default end)) else g) us g.

Theorem range_map_history :
  forall (T : Type) (kmin kmax : Z) (default : T) (us : list ((T -> T) * Z * Z)),
  Forall (fun u => kmin <= snd (fst u) <= snd u /\ snd u <= kmax) us ->
  exists m, updates kmin kmax default [] us = Some m /\ rm_ok kmin kmax m /\
    forall k, rm_get m k = pointwise default None us k.
Proof.
  intros T kmin kmax default us Hus.
  assert (G : forall m, rm_ok kmin kmax m -> exists m', updates kmin kmax default m us = Some m' /\ rm_ok kmin kmax m' /\
    forall k, rm_get m' k = pointwise default (rm_get m k) us k).
  { induction Hus as [|[[f a] b] us Hu _ IH]; intros m Hm.
    - exists m. repeat split; auto; apply Hm.
    - cbn [updates fst snd] in *.
      destruct (range_map_update_pointwise T kmin kmax default f m a b Hm) as (m1 & E1 & O1 & U1); try lia.
      rewrite E1. cbn [obind]. destruct (IH m1 O1) as (m2 & E2 & O2 & U2). exists m2.
      split; [assumption|]. split; [assumption|]. intros k. rewrite U2, U1. reflexivity. }
  apply (G []). apply ok_nil.
Qed.

(* an unsigned 8-bit key type, updates reaching both ends of the key range *)
Example range_map_ex :
  updates 0 255 0 [] [((fun x => x + 1), 10, 20); ((fun x => x + 10), 0, 12); ((fun x => x + 100), 5, 255);
                      ((fun _ => 7), 255, 255)]
  = Some [(0, (4, 10)); (5, (9, 110)); (10, (12, 111)); (13, (20, 101)); (21, (254, 100)); (255, (255, 7))].
Proof. reflexivity. Qed.
Print Assumptions range_map_update_pointwise.
Print Assumptions range_map_history.

(* the single-key and assigning forms *)
Theorem range_map_assign :
  forall (T : Type) (kmin kmax : Z) (default v : T) m first last,
  rm_ok kmin kmax m -> kmin <= first <= last -> last <= kmax ->
  (exists m', rm_assign kmin kmax default v m first last = Some m' /\ rm_ok kmin kmax m' /\
     forall k, rm_get m' k = if (first <=? k) && (k <=? last) then Some v else rm_get m k) /\
  (exists m', rm_assign_key kmin kmax default v m first = Some m' /\ rm_ok kmin kmax m' /\
     forall k, rm_get m' k = if k =? first then Some v else rm_get m k) /\
  (forall f, exists m', rm_update_key kmin kmax default f m first = Some m' /\ rm_ok kmin kmax m' /\
     forall k, rm_get m' k =
       if k =? first then Some (f (match rm_get m k with Some v => v | None => default end)) else rm_get m k).
Proof.
  intros T kmin kmax default v m first last Hm H1 H2. split; [|split].
  - destruct (range_map_update_pointwise T kmin kmax default (fun _ => v) m first last Hm) as (m' & E & O & U); auto.
    exists m'. auto.
  - destruct (range_map_update_pointwise T kmin kmax default (fun _ => v) m first first Hm) as (m' & E & O & U); try lia.
    exists m'. split; [exact E|]. split; [exact O|]. intros k. rewrite U.
    replace ((first <=? k) && (k <=? first)) with (k =? first) by lia. reflexivity.
  - intros f. destruct (range_map_update_pointwise T kmin kmax default f m first first Hm) as (m' & E & O & U); try lia.
    exists m'. split; [exact E|]. split; [exact O|]. intros k. rewrite U.
    replace ((first <=? k) && (k <=? first)) with (k =? first) by lia. reflexivity.
Qed.
Example range_map_assign_ex : rm_assign_key 0 255 0 5 [(0, (255, 1))] 255 = Some [(0, (254, 1)); (255, (255, 5))].
Proof. reflexivity. Qed.
Print Assumptions range_map_assign.

(* C33 *)
Theorem range_map_defrag :
  forall (T : Type) (kmin kmax : Z) (equal : T -> T -> bool) m,
  (forall x, equal x x = true) ->
  (forall x y z, equal x y = true -> equal y z = true -> equal x z = true) ->
  rm_ok kmin kmax m ->
  exists m', rm_defrag kmin kmax equal m = Some m' /\ rm_ok kmin kmax m' /\ rm_defragmented equal m' /\
    forall k, match rm_get m k, rm_get m' k with
              | None, None => True
              | Some u, Some v => equal v u = true
              | _, _ => False
              end.
Proof. intros. apply rm_defrag_spec; assumption. Qed.

(* values equivalent when equal modulo 10; three ranges merge, a gap does not *)
Example range_map_defrag_ex :
  rm_defrag 0 255 (fun x y => x mod 10 =? y mod 10)
    [(0, (4, 11)); (5, (9, 21)); (10, (12, 1)); (14, (20, 1)); (21, (254, 3)); (255, (255, 13))]
  = Some [(0, (12, 11)); (14, (20, 1)); (21, (255, 3))].
Proof. reflexivity. Qed.
Example range_map_ok_ex : rm_ok 0 255 [(0, (4, 11)); (5, (9, 21)); (255, (255, 13))].
Proof.
  split; repeat constructor; cbn; lia.
Qed.
Print Assumptions range_map_defrag.
