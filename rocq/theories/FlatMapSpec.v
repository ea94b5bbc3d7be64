(* Independent specification for flat maps: a mathematical finite map and a bag
   in insertion order. *)
From Coq Require Import List Bool.
From Verif Require Import FlatMapModel.
Import ListNotations.

Record strict_weak_order {K} (lt : K -> K -> bool) : Prop := {
  swo_irrefl : forall x, lt x x = false;
  swo_trans : forall x y z, lt x y = true -> lt y z = true -> lt x z = true;
  swo_neg_trans : forall x y z, lt x z = true -> lt x y = true \/ lt y z = true
}.

(* equivalence induced by the order *)
Definition eqv {K} (lt : K -> K -> bool) (a b : K) : bool := negb (lt a b) && negb (lt b a).

(* A finite map up to key equivalence: the stored entry for each key, and the
   number of entries. *)
Section MapSpec.
Context {K V : Type} (lt : K -> K -> bool) (default : V).
Record map_spec := MS { ms_get : K -> option (K * V); ms_size : nat }.
Definition ms_empty : map_spec := MS (fun _ => None) 0.
Definition ms_has (m : map_spec) (k : K) : bool := if ms_get m k then true else false.
Definition ms_put (m : map_spec) (k : K) (e : K * V) : map_spec :=
  MS (fun k' => if eqv lt k k' then Some e else ms_get m k')
     (if ms_has m k then ms_size m else S (ms_size m)).
Definition ms_del (m : map_spec) (k : K) : map_spec :=
  MS (fun k' => if eqv lt k k' then None else ms_get m k')
     (if ms_has m k then pred (ms_size m) else ms_size m).

(* expected outcome of each operation *)
Definition ms_step (m : map_spec) (op : @fm_op K V) : map_spec * @fm_out K V :=
  match op with
  | FmInsert k v =>
    match ms_get m k with
    | Some e => (m, FoInserted e false)
    | None => (ms_put m k (k, v), FoInserted (k, v) true)
    end
  | FmAssign k v =>
    match ms_get m k with
    | Some e => (ms_put m k (fst e, v), FoUnit)      (* the stored key stays *)
    | None => (ms_put m k (k, v), FoUnit)
    end
  | FmSubscript k =>
    match ms_get m k with
    | Some e => (m, FoVal (snd e))
    | None => (ms_put m k (k, default), FoVal default)
    end
  | FmErase k => (ms_del m k, FoNum (if ms_has m k then 1 else 0))
  | FmClear => (ms_empty, FoUnit)
  | FmLookup k => (m, FoEntry (ms_get m k))
  | FmContains k => (m, FoBool (ms_has m k))
  | FmCount k => (m, FoNum (if ms_has m k then 1 else 0))
  | FmAt k => (m, FoAt (option_map snd (ms_get m k)))
  end.
Fixpoint ms_run (m : map_spec) (ops : list (@fm_op K V)) : map_spec * list (@fm_out K V) :=
  match ops with
  | [] => (m, [])
  | op :: ops => let (m1, o) := ms_step m op in let (m2, os) := ms_run m1 ops in (m2, o :: os)
  end.
End MapSpec.

(* A bag: all entries in order of insertion. *)
Section BagSpec.
Context {K E : Type} (lt : K -> K -> bool) (key : E -> K).
Definition bag_of (h : list E) (k : K) : list E := filter (fun e => eqv lt k (key e)) h.
Definition bag_step (h : list E) (op : @mm_op K E) : list E * @mm_out E :=
  match op with
  | MmInsert e => (h ++ [e], MoInserted e)
  | MmErase k => (filter (fun e => negb (eqv lt k (key e))) h, MoNum (length (bag_of h k)))
  | MmClear => ([], MoUnit)
  | MmLookup k => (h, MoEntry (hd_error (bag_of h k)))
  | MmContains k => (h, MoBool (match bag_of h k with [] => false | _ => true end))
  | MmCount k => (h, MoNum (length (bag_of h k)))
  end.
Fixpoint bag_run (h : list E) (ops : list (@mm_op K E)) : list E * list (@mm_out E) :=
  match ops with
  | [] => (h, [])
  | op :: ops => let (h1, o) := bag_step h op in let (h2, os) := bag_run h1 ops in (h2, o :: os)
  end.
End BagSpec.
