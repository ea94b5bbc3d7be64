(* Model of archon::core::LiteralHashMap (src/archon/core/literal_hash_map.hpp).
   K, V: key and value types; keq: operator== of keys; hf: the hash function
   (its result is an unsigned integer, modelled as nat; a result wider than
   std::size_t is reduced by % before the conversion, literal_hash_map.hpp:195).
   (kd, vd) is the value-initialised entry. *)
From Coq Require Import List Arith.
From Verif Require Import ArrLib.
Import ListNotations.

(* State: entries and bucket offsets, literal_hash_map.hpp:74-88 *)
Record lhm (K V : Type) := Lhm { lentries : list (K * V); lbuckets : list nat }.
Arguments Lhm {K V}. Arguments lentries {K V}. Arguments lbuckets {K V}.

(* hash: literal_hash_map.hpp:191-196 *)
Definition lhm_hash {K} (hf : K -> nat) (M : nat) (k : K) : nat := hf k mod M.

(* the loop over the associations for one bucket: literal_hash_map.hpp:139-147.
   sel extracts key and value (init and init_rev differ only in this). *)
Fixpoint lhm_scan {K V X} (hf : K -> nat) (M i : nat) (sel : X -> K * V)
    (assocs : list X) (entries : list (K * V)) (offset : nat)
  : option (list (K * V) * nat) :=
  match assocs with
  | [] => Some (entries, offset)
  | a :: rest =>
    let kv := sel a in
    if Nat.eqb (lhm_hash hf M (fst kv)) i then
      let? entries := set_nth entries offset kv in
      lhm_scan hf M i sel rest entries (S offset)
    else lhm_scan hf M i sel rest entries offset
  end.

(* the loop over the buckets: literal_hash_map.hpp:137-148; n buckets remain *)
Fixpoint lhm_init_loop {K V X} (hf : K -> nat) (M : nat) (sel : X -> K * V) (assocs : list X)
    (n i : nat) (entries : list (K * V)) (buckets : list nat) (offset : nat)
  : option (list (K * V) * list nat * nat) :=
  match n with
  | O => Some (entries, buckets, offset)
  | S n =>
    let? buckets := set_nth buckets i offset in
    let? (entries, offset) := lhm_scan hf M i sel assocs entries offset in
    lhm_init_loop hf M sel assocs n (S i) entries buckets offset
  end.

(* constructor followed by init / init_rev: literal_hash_map.hpp:126-170;
   None also if the final assertion fails *)
Definition lhm_make {K V X} (kd : K) (vd : V) (hf : K -> nat) (M : nat) (sel : X -> K * V)
    (assocs : list X) : option (lhm K V) :=
  let N := length assocs in
  let? (entries, buckets, offset) :=
    lhm_init_loop hf M sel assocs M 0 (repeat (kd, vd) N) (repeat 0 M) 0 in
  if Nat.eqb offset N then Some (Lhm entries buckets) else None.

(* make_literal_hash_map / make_rev_literal_hash_map: literal_hash_map.hpp:199-230 *)
Definition num_buckets (M N : nat) : nat := if Nat.ltb 0 M then M else N.
Definition make_literal_hash_map {K V} (kd : K) (vd : V) (hf : K -> nat) (M : nat)
    (assocs : list (K * V)) : option (lhm K V) :=
  lhm_make kd vd hf (num_buckets M (length assocs)) (fun a => (fst a, snd a)) assocs.
Definition make_rev_literal_hash_map {K V} (kd : K) (vd : V) (hf : K -> nat) (M : nat)
    (assocs : list (V * K)) : option (lhm K V) :=
  lhm_make kd vd hf (num_buckets M (length assocs)) (fun a => (snd a, fst a)) assocs.

(* the search loop of find: literal_hash_map.hpp:180-187; n = end - i iterations *)
Fixpoint lhm_find_loop {K V} (keq : K -> K -> bool) (key : K) (entries : list (K * V))
    (n i : nat) (value : V) : option (bool * V) :=
  match n with
  | O => Some (false, value)
  | S n =>
    let? e := nth_error entries i in
    if keq (fst e) key then Some (true, snd e)
    else lhm_find_loop keq key entries n (S i) value
  end.

(* find: literal_hash_map.hpp:173-188; the result is the returned flag and the
   new value of the out argument *)
Definition lhm_find {K V} (keq : K -> K -> bool) (hf : K -> nat) (m : lhm K V) (key : K) (value : V)
  : option (bool * V) :=
  let N := length (lentries m) in
  let M := length (lbuckets m) in
  let bi := lhm_hash hf M key in
  let? begin := nth_error (lbuckets m) bi in
  let? end_ := if Nat.eqb (M - bi) 1 then Some N else nth_error (lbuckets m) (S bi) in
  lhm_find_loop keq key (lentries m) (end_ - begin) begin value.
