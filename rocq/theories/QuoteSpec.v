(* Specification vocabulary for C42 and C51, independent of the model: what a character or
   string literal denotes, and the quoted and unquoted forms of a string as documented in
   /repo/src/archon/core/quote.hpp. *)
From Coq Require Import ZArith Bool List.
Import ListNotations.
Open Scope Z_scope.

(* A reader for what is between the quotation marks of a C or C++ literal.  q is the
   quotation mark, w is the number of bits of a character. *)
Section Literal.
  Variables q w : Z.

  Definition octal_digit (c : Z) : option Z := if (48 <=? c) && (c <=? 55) then Some (c - 48) else None.
  Definition hex_digit (c : Z) : option Z :=
    if (48 <=? c) && (c <=? 57) then Some (c - 48)
    else if (65 <=? c) && (c <=? 70) then Some (c - 55)
    else if (97 <=? c) && (c <=? 102) then Some (c - 87)
    else None.

  (* the quotation marks, question mark, backslash, and the letters a b f n r t v *)
  Definition simple_escape (c : Z) : option Z :=
    if (c =? 39) || (c =? 34) || (c =? 63) || (c =? 92) then Some c
    else if c =? 97 then Some 7 else if c =? 98 then Some 8
    else if c =? 102 then Some 12 else if c =? 110 then Some 10
    else if c =? 114 then Some 13 else if c =? 116 then Some 9
    else if c =? 118 then Some 11 else None.

  Inductive reading :=
  | Plain                            (* not in an escape sequence *)
  | Escape                           (* after a backslash *)
  | Octal (digits : nat) (value : Z) (* after some octal digits *)
  | Hex (digits : nat) (value : Z).  (* after \x and some hexadecimal digits *)

  (* the value of an escape sequence must be the value of a character *)
  Definition emit (v : Z) (r : option (list Z)) : option (list Z) :=
    if v <? 2 ^ w then option_map (cons v) r else None.

  (* An octal escape sequence has at most three digits, a hexadecimal escape sequence goes
     on for as long as there are hexadecimal digits.  There is no quotation mark, backslash
     or newline outside of the escape sequences. *)
  Fixpoint read (st : reading) (t : list Z) : option (list Z) :=
    match t with
    | [] =>
      match st with
      | Plain => Some []
      | Escape => None
      | Octal _ v => emit v (Some [])
      | Hex n v => if (n =? 0)%nat then None else emit v (Some [])
      end
    | c :: t =>
      let plain :=
        if c =? 92 then read Escape t
        else if (c =? q) || (c =? 10) then None
        else option_map (cons (c mod 2 ^ w)) (read Plain t) in
      match st with
      | Plain => plain
      | Escape =>
        match simple_escape c with
        | Some v => emit v (read Plain t)
        | None =>
          if c =? 120 then read (Hex 0 0) t
          else match octal_digit c with Some d => read (Octal 1 d) t | None => None end
        end
      | Octal n v =>
        match octal_digit c with
        | Some d => if (n <? 3)%nat then read (Octal (S n) (v * 8 + d)) t else emit v plain
        | None => emit v plain
        end
      | Hex n v =>
        match hex_digit c with
        | Some d => read (Hex (S n) (v * 16 + d)) t
        | None => if (n =? 0)%nat then None else emit v plain
        end
      end
    end.

  (* the text is a literal for this sequence of characters, given by their codes *)
  Definition literal (text codes : list Z) : Prop :=
    exists body, text = q :: body ++ [q] /\ read Plain body = Some codes.
End Literal.

(* the code of a character in a character type of w bits, signed or not *)
Definition code (w ch : Z) : Z := ch mod 2 ^ w.

Definition ellipsis : list Z := [46; 46; 46].
Definition text_size (t : list Z) : Z := Z.of_nat (length t).

(* The quoted form, with size limited to adj, of a string whose characters are, one by one,
   written as the given pieces: the whole string, or the longest prefix that fits together
   with an ellipsis.  It includes count characters of the string. *)
Definition quoted_form (q : Z) (pieces : list (list Z)) (adj : Z) (out : list Z) (count : nat) : Prop :=
  (text_size (concat pieces) + 2 <= adj /\ count = length pieces /\
   out = q :: concat pieces ++ [q]) \/
  (text_size (concat pieces) + 2 > adj /\ (count <= length pieces)%nat /\
   text_size (concat (firstn count pieces)) + 5 <= adj /\
   (forall k, (count < k <= length pieces)%nat -> text_size (concat (firstn k pieces)) + 5 > adj) /\
   out = q :: concat (firstn count pieces) ++ ellipsis ++ [q]).

(* a character that needs neither escaping nor quotation *)
Definition plain_char (print space : Z -> bool) (q c : Z) : Prop :=
  print c = true /\ space c = false /\ c <> q /\ c <> 92.

(* The unquoted form, with size limited to adj, of a string *)
Definition unquoted_form (simple : Z -> Prop) (s : list Z) (adj : Z) (out : list Z) (count : nat) : Prop :=
  (text_size s <= adj /\ Forall simple s /\ count = length s /\ out = s) \/
  (~ (text_size s <= adj /\ Forall simple s) /\ (count <= length s)%nat /\
   Z.of_nat count + 3 <= adj /\ Forall simple (firstn count s) /\
   (forall k, (count < k <= length s)%nat -> ~ (Z.of_nat k + 3 <= adj /\ Forall simple (firstn k s))) /\
   out = firstn count s ++ ellipsis).

(* When a maximum size is specified, this decides whether the unquoted form is used. *)
Definition use_unquoted (s : list Z) (max_size : Z) (u : list Z) (u_count : nat) (q : list Z) (q_count : nat) : Prop :=
  s <> [] /\
  ((text_size u <= max_size /\ text_size q <= max_size /\ (q_count <= u_count)%nat) \/
   (~ (text_size u <= max_size /\ text_size q <= max_size) /\
    (text_size u < text_size q \/ (text_size u = text_size q /\ (q_count <= u_count)%nat)))).

(* The characters of string s are written as these pieces: a character that is printable,
   and is neither the quotation mark nor a backslash, is written as it is, unless it would
   extend a hexadecimal escape sequence; and the pieces mean what they should, together,
   and also when some of them are followed by an ellipsis. *)
Definition escaped (q w : Z) (print xdigit : Z -> bool) (s : list Z) (pieces : list (list Z)) : Prop :=
  length pieces = length s /\ Forall (fun p => p <> []) pieces /\
  (forall i c p, nth_error s i = Some c -> nth_error pieces i = Some p ->
     print c = true -> c <> q -> c <> 92 ->
     (xdigit c = true -> forall j t, i = S j -> nth_error pieces j <> Some (92 :: 120 :: t)) ->
     p = [c]) /\
  read q w Plain (concat pieces) = Some (map (code w) s) /\
  (forall k, (k <= length s)%nat ->
     read q w Plain (concat (firstn k pieces) ++ ellipsis) = Some (map (code w) (firstn k s) ++ ellipsis)).
