(* Specification vocabulary for C141 to C143, independent of the model: base 62 numerals and texts made of blocks. *)
From Coq Require Import ZArith Bool List.
Import ListNotations.
Open Scope Z_scope.

(* digits in the order of ASCII: figures, upper-case letters, lower-case letters *)
Definition base62_digit (c d : Z) : Prop :=
  (48 <= c <= 57 /\ d = c - 48) \/ (65 <= c <= 90 /\ d = c - 65 + 10) \/ (97 <= c <= 122 /\ d = c - 97 + 36).

(* cs is a numeral in base 62, of value v, most significant digit first *)
Inductive base62 : list Z -> Z -> Prop :=
| base62_nil : base62 [] 0
| base62_snoc cs v c d : base62 cs v -> base62_digit c d -> base62 (cs ++ [c]) (v * 62 + d).

(* two words and 11 characters *)
Definition pair_value (w1 w2 : Z) : Z := w1 + 2 ^ 32 * w2.

Definition word (w : Z) : Prop := 0 <= w < 2 ^ 32.

Definition pair_text (w1 w2 : Z) (cs : list Z) : Prop :=
  length cs = 11%nat /\ base62 cs (pair_value w1 w2) /\ word w1 /\ word w2.

(* six words and 33 characters *)
Definition block_text (ws cs : list Z) : Prop :=
  exists w1 w2 w3 w4 w5 w6 a b c, ws = [w1; w2; w3; w4; w5; w6] /\ cs = a ++ b ++ c /\
    pair_text w1 w2 a /\ pair_text w3 w4 b /\ pair_text w5 w6 c.

(* text of a seed that is made of blocks *)
Fixpoint dashed {C} (dash : C) (blocks : list (list C)) : list C :=
  match blocks with
  | [] => [dash]
  | [b] => b
  | b :: rest => b ++ dash :: dashed dash rest
  end.

(* no pair of words is all ones *)
Fixpoint no_all_ones (ws : list Z) : Prop :=
  match ws with
  | w1 :: w2 :: rest => ~ (w1 = 2 ^ 32 - 1 /\ w2 = 2 ^ 32 - 1) /\ no_all_ones rest
  | _ => True
  end.

(* characters of a seed text are mapped faithfully *)
Definition mapping_ok {C} (widen : Z -> C) (narrow : C -> Z) (is_alnum : C -> bool) : Prop :=
  is_alnum (widen 45) = false /\
  forall c d, base62_digit c d -> narrow (widen c) = c /\ is_alnum (widen c) = true.

(* a block as it is accepted: alphanumeric characters, of which the first 33 stand for six words without a pair of all ones *)
Definition accepted_block {C} (narrow : C -> Z) (is_alnum : C -> bool) (ws : list Z) (text : list C) : Prop :=
  Forall (fun c => is_alnum c = true) text /\
  exists cs, firstn 33 (map narrow text) = cs /\ block_text ws cs /\ no_all_ones ws.

(* text does not go on with a block or dash *)
Definition ended {C} (is_alnum : C -> bool) (dash : C) (text : list C) : Prop :=
  match text with
  | [] => True
  | c :: _ => is_alnum c = false /\ c <> dash
  end.
