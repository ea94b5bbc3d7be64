(* Model of the parsing of lines of text into fields: BasicTextParser of core/text_parser.hpp.

   Characters are integers.  The state St is that of all the variables that fields and field sequence refer to.  What set() does with a word
   for a field, and add() for the field sequence (text_parser.hpp:275-322), is a parameter: None if false is returned, otherwise the new
   state.  Not modelled: what is left in a variable after a word that was not accepted, and exceptions. *)
From Coq Require Import ZArith Bool List Arith.
From Verif Require Import WildFilterModel ArrLib.
Import ListNotations.

(* BasicTextParser::parse: text_parser.hpp:144-145, the values of the arguments error, value, ident and pos after a return of false, and the
   state after a return of true *)
Inductive outcome (St I : Type) :=
| Parsed (st : St)
| BadValue (value : list Z) (ident : I) (pos : nat)
| MissingValue (ident : I) (pos : nat)
| TooManyValues (value : list Z) (pos : nat).
Arguments Parsed {St I}.
Arguments BadValue {St I}.
Arguments MissingValue {St I}.
Arguments TooManyValues {St I}.

Section Parse.
Context {St I : Type}.

(* Field1, Field2: text_parser.hpp:105-117 *)
Record field := Field { f_ident : I; f_set : list Z -> St -> option St }.

(* FieldSeq1, FieldSeq2: text_parser.hpp:120-132 *)
Record field_seq := FieldSeq { s_ident : I; s_add : list Z -> St -> option St }.

(* word.data() - str.data(): text_parser.hpp:155, where cur is what is left of the string after the word *)
Definition word_pos (str word cur : list Z) : nat := length str - length cur - length word.

(* the function called for each field: text_parser.hpp:148-163 and 183-198, and the iteration over the fields, which stops when the function
   returns false (for_each_tuple_elem_a).  The left result is the failure, the right the state and what is left of the string. *)
Fixpoint parse_fields (delim : Z) (str cur : list Z) (fields : list field) (st : St) : outcome St I + St * list Z :=
  match fields with
  | [] => inr (st, cur)
  | f :: fields =>
    match next_word delim cur with
    | Some (word, cur) =>
      match f_set f word st with
      | Some st => parse_fields delim str cur fields st
      | None => inl (BadValue word (f_ident f) (word_pos str word cur))
      end
    | None => inl (MissingValue (f_ident f) (length str))
    end
  end.

(* parse, without a field sequence: text_parser.hpp:142-173 *)
Definition parse_line (delim : Z) (str : list Z) (fields : list field) (st : St) : outcome St I :=
  match parse_fields delim str str fields st with
  | inl e => e
  | inr (st, cur) =>
    match next_word delim cur with
    | None => Parsed st
    | Some (word, cur) => TooManyValues word (word_pos str word cur)
    end
  end.

(* the loop over the rest of the words: text_parser.hpp:202-222.  The counter is a std::size_t. *)
Fixpoint parse_seq (fuel : nat) (delim : Z) (str cur : list Z) (seq : field_seq) (min max i : Z) (st : St) : option (outcome St I) :=
  match fuel with
  | O => None
  | S fuel =>
    match next_word delim cur with
    | Some (word, cur) =>
      if Z.ltb i max then
        match s_add seq word st with
        | Some st => parse_seq fuel delim str cur seq min max ((i + 1) mod 2 ^ 64)%Z st
        | None => Some (BadValue word (s_ident seq) (word_pos str word cur))
        end
      else Some (TooManyValues word (word_pos str word cur))
    | None =>
      if Z.leb min i then Some (Parsed st)
      else Some (MissingValue (s_ident seq) (length str))
    end
  end.

(* parse, with a field sequence: text_parser.hpp:176-225 *)
Definition parse_line_seq (delim : Z) (str : list Z) (fields : list field) (seq : field_seq) (min max : Z) (st : St) :
    option (outcome St I) :=
  match parse_fields delim str str fields st with
  | inl e => Some e
  | inr (st, cur) => parse_seq (S (length cur)) delim str cur seq min max 0 st
  end.
End Parse.
Arguments field : clear implicits.
Arguments field_seq : clear implicits.
