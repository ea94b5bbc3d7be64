(* Specification for C36: the published FNV-1a definition for 32 bits. *)
From Coq Require Import ZArith List.
From Verif Require Import CInt FnvModel.
Import ListNotations.
Open Scope Z_scope.

Definition fnv1a_32 (octets : list Z) : Z :=
  fold_left (fun h o => (Z.lxor h o * 16777619) mod 2 ^ 32) octets 2166136261.

(* the octets of the w-bit two's complement representation, least significant first *)
Definition le_octets (w v : Z) : list Z :=
  map (fun i => (v mod 2 ^ w) / 2 ^ (8 * Z.of_nat i) mod 256) (seq 0 (Z.to_nat ((w + 7) / 8))).

Definition item_octets (it : fnv_item) : list Z :=
  match it with FByte b => [b] | FInt T v => le_octets (iwidth T) v end.

Definition item_ok (it : fnv_item) : Prop :=
  match it with FByte b => 0 <= b < 256 | FInt T v => ity_ok T /\ in_range T v end.
