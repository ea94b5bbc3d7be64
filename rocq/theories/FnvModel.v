(* Model of archon::core::Hash_FNV_1a_32 (src/archon/core/hash_fnv.hpp).
   W is the width of value_type = std::uint_fast32_t (at least 32, 64 on common
   platforms); the width of char is 8, so the loop in add_byte is not entered. *)
From Coq Require Import ZArith List.
From Verif Require Import CInt IntModel.
Import ListNotations.
Open Scope Z_scope.

(* add_octet: hash_fnv.hpp:157-164.  m_hash and value have W bits; the products
   are of type uint_fast32_t and hence reduced modulo 2^W. *)
Definition fnv_add_octet (W m_hash value : Z) : Z :=
  let m_hash := Z.lxor m_hash value in
  (m_hash * 16777619) mod 2 ^ W.

(* add_byte: hash_fnv.hpp:108-122 *)
Definition fnv_add_byte (W m_hash byte : Z) : Z := fnv_add_octet W m_hash byte.

(* the loop of add_int: hash_fnv.hpp:131-136.  fuel = number of octets *)
Fixpoint fnv_int_loop (fuel : nat) (W width offset m_hash value_2 : Z) : option (Z * Z) :=
  match fuel with
  | O => None
  | S fuel =>
    if width - offset >? 8 then
      let m_hash := fnv_add_octet W m_hash (Z.land value_2 255) in
      fnv_int_loop fuel W width (offset + 8) m_hash (Z.shiftr value_2 8)
    else Some (m_hash, value_2)
  end.

(* add_int: hash_fnv.hpp:125-139 (int_width<T> is the width including a sign
   bit; value_2 has the unsigned type of the promoted width) *)
Definition fnv_add_int (W : Z) (T : ity) (m_hash value : Z) : option Z :=
  let width := iwidth T in
  let value_2 := wrap (unsigned_type (promo T)) value in
  let* r := (if width >? 8 then
               fnv_int_loop (S (Z.to_nat width)) W width 0 m_hash value_2
             else Some (m_hash, value_2)) in
  Some (fnv_add_octet W (fst r) (snd r mod 2 ^ W)).

(* one call on the hasher *)
Inductive fnv_item := FByte (b : Z) | FInt (T : ity) (v : Z).

Fixpoint fnv_run (W m_hash : Z) (items : list fnv_item) : option Z :=
  match items with
  | [] => Some m_hash
  | FByte b :: r => fnv_run W (fnv_add_byte W m_hash b) r
  | FInt T v :: r => let* h := fnv_add_int W T m_hash v in fnv_run W h r
  end.

(* construction (m_hash = 2166136261, hash_fnv.hpp:94), the calls, get() (151-154) *)
Definition fnv_hash (W : Z) (items : list fnv_item) : option Z :=
  let* h := fnv_run W 2166136261 items in
  Some (Z.land h (2 ^ 32 - 1)).
