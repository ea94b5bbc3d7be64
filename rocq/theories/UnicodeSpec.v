(* Unicode encoding forms (The Unicode Standard, section 3.9; RFC 3629 and RFC 2781),
   independent of the model of the implementation (C17-C22). *)
From Coq Require Import ZArith List Bool.
Import ListNotations.
Open Scope Z_scope.

(* The code points that the library considers valid: not a surrogate, and not U+FFFE or
   U+FFFF *)
Definition valid_cp (c : Z) : Prop := 0 <= c < 0x110000 /\ ~ (0xD800 <= c < 0xE000) /\ c <> 0xFFFE /\ c <> 0xFFFF.

(* The ones that are representable in an output character type of less than 21 bits *)
Definition valid_for (reduced : bool) (c : Z) : Prop := valid_cp c /\ (reduced = true -> c < 0x10000).

(* A number, in base 64, with k continuation bytes *)
Fixpoint tail_bytes (k : nat) (c : Z) : list Z :=
  match k with
  | O => []
  | S k => 128 + (c / 64 ^ Z.of_nat k) mod 64 :: tail_bytes k c
  end.

Definition utf8 (c : Z) : list Z :=
  if c <? 0x80 then [c]
  else if c <? 0x800 then 0xC0 + c / 64 :: tail_bytes 1 c
  else if c <? 0x10000 then 0xE0 + c / 64 ^ 2 :: tail_bytes 2 c
  else 0xF0 + c / 64 ^ 3 :: tail_bytes 3 c.

Definition utf16 (c : Z) : list Z :=
  if c <? 0x10000 then [c]
  else [0xD800 + (c - 0x10000) / 0x400; 0xDC00 + (c - 0x10000) mod 0x400].

Definition ucs (c : Z) : list Z := [c].

(* No encoded code point is at the beginning of s *)
Definition stuck (valid : Z -> Prop) (src : Z -> list Z) (s : list Z) : Prop :=
  forall c t, valid c -> s <> src c ++ t.

(* out is s converted from src to dst with malformed parts replaced: the parts consist of
   units where no encoded code point begins. *)
Inductive mended (valid : Z -> Prop) (src dst : Z -> list Z) (replacement : list Z) : list Z -> list Z -> Prop :=
| mended_nil : mended valid src dst replacement [] []
| mended_good c s out : valid c -> mended valid src dst replacement s out ->
    mended valid src dst replacement (src c ++ s) (dst c ++ out)
| mended_bad part s out : part <> [] ->
    (forall p1 p2, part = p1 ++ p2 -> p2 <> [] -> stuck valid src (p2 ++ s)) ->
    mended valid src dst replacement s out ->
    mended valid src dst replacement (part ++ s) (replacement ++ out).

(* Well-formed UTF-8 by the ranges of the bytes (The Unicode Standard, table 3-7), except
   that the encodings of U+FFFE and U+FFFF (EF BF BE and EF BF BF) are left out *)
Definition within (a b x : Z) : Prop := a <= x <= b.
Inductive table_3_7 : list Z -> Prop :=
| row_0 : table_3_7 []
| row_1 a s : within 0x00 0x7F a -> table_3_7 s -> table_3_7 (a :: s)
| row_2 a b s : within 0xC2 0xDF a -> within 0x80 0xBF b -> table_3_7 s -> table_3_7 (a :: b :: s)
| row_3 b c s : within 0xA0 0xBF b -> within 0x80 0xBF c -> table_3_7 s -> table_3_7 (0xE0 :: b :: c :: s)
| row_4 a b c s : within 0xE1 0xEC a -> within 0x80 0xBF b -> within 0x80 0xBF c -> table_3_7 s -> table_3_7 (a :: b :: c :: s)
| row_5 b c s : within 0x80 0x9F b -> within 0x80 0xBF c -> table_3_7 s -> table_3_7 (0xED :: b :: c :: s)
| row_6 a b c s : within 0xEE 0xEF a -> within 0x80 0xBF b -> within 0x80 0xBF c ->
    ~ (a = 0xEF /\ b = 0xBF /\ 0xBE <= c) -> table_3_7 s -> table_3_7 (a :: b :: c :: s)
| row_7 b c d s : within 0x90 0xBF b -> within 0x80 0xBF c -> within 0x80 0xBF d -> table_3_7 s -> table_3_7 (0xF0 :: b :: c :: d :: s)
| row_8 a b c d s : within 0xF1 0xF3 a -> within 0x80 0xBF b -> within 0x80 0xBF c -> within 0x80 0xBF d ->
    table_3_7 s -> table_3_7 (a :: b :: c :: d :: s)
| row_9 b c d s : within 0x80 0x8F b -> within 0x80 0xBF c -> within 0x80 0xBF d -> table_3_7 s -> table_3_7 (0xF4 :: b :: c :: d :: s).
