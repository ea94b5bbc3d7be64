(* Model of enumerations with named values: core/enum.hpp, and of what it uses of core/stream_input.hpp *)
From Coq Require Import ZArith Bool List.
From Verif Require Import ArrLib.
Import ListNotations.
Open Scope Z_scope.

(* std::map<K, V, Compare>: an ordered list of entries.  The search tree is not modelled, only the order of its entries:
   keys are compared using the comparison object alone, and a key is looked for where the order says that it must be. *)
Section Map.
Context {K V : Type} (less : K -> K -> bool).

(* std::map::emplace(), as used in core/enum.hpp:217 and 221; None if nothing was inserted *)
Fixpoint emplace (m : list (K * V)) (k : K) (v : V) : option (list (K * V)) :=
  match m with
  | [] => Some [(k, v)]
  | (k', v') :: rest =>
    if less k' k then
      let? rest' := emplace rest k v in
      Some ((k', v') :: rest')
    else if less k k' then Some ((k, v) :: m)
    else None
  end.

(* std::map::find(), as used in core/enum.hpp:230 and 239 *)
Fixpoint find_key (m : list (K * V)) (k : K) : option V :=
  match m with
  | [] => None
  | (k', v') :: rest =>
    if less k' k then find_key rest k
    else if less k k' then None
    else Some v'
  end.
End Map.

(* std::ctype<char>::toupper() in the classic locale; characters are numbers, ASCII is assumed *)
Definition toupper (ch : Z) : Z :=
  if (97 <=? ch) && (ch <=? 122) then ch - 32 else ch.

(* std::lexicographical_compare() *)
Fixpoint lex_less (cmp : Z -> Z -> bool) (a b : list Z) : bool :=
  match a, b with
  | _, [] => false
  | [], _ :: _ => true
  | x :: a, y :: b =>
    if cmp x y then true
    else if cmp y x then false
    else lex_less cmp a b
  end.

(* EnumMapper::Compare::operator(): core/enum.hpp:250-258 *)
Definition name_less (ignore_case : bool) (a b : list Z) : bool :=
  let cmp := fun lhs rhs => toupper lhs <? toupper rhs in
  if ignore_case then lex_less cmp a b
  else lex_less Z.ltb a b.

(* the exceptions of the constructor: core/enum.hpp:220 and 224 *)
Inductive mapper_error := DuplicateValue | DuplicateName.

(* EnumMapper: core/enum.hpp:261-262 *)
Record mapper := Mapper {
  value_to_name : list (Z * list Z);
  name_to_value : list (list Z * Z);
}.

(* one iteration of the loop of the constructor: core/enum.hpp:216-224 *)
Definition add_entry (ignore_case : bool) (m : mapper) (entry : Z * list Z) : mapper_error + mapper :=
  let (value, name) := entry in
  match emplace Z.ltb (value_to_name m) value name with
  | None => inl DuplicateValue
  | Some m_1 =>
    match emplace (name_less ignore_case) (name_to_value m) name value with
    | None => inl DuplicateName
    | Some m_2 => inr (Mapper m_1 m_2)
    end
  end.

Fixpoint add_entries (ignore_case : bool) (m : mapper) (map : list (Z * list Z)) : mapper_error + mapper :=
  match map with
  | [] => inr m
  | entry :: map =>
    match add_entry ignore_case m entry with
    | inl e => inl e
    | inr m => add_entries ignore_case m map
    end
  end.

(* EnumMapper::EnumMapper(): core/enum.hpp:213-226, also get_enum_mapper(): core/enum.hpp:266-270.  The object is
   constructed on first use, and constructed again if construction failed, so each use has the same outcome.  Names are
   lists of characters without the terminating null character. *)
Definition make_mapper (ignore_case : bool) (map : list (Z * list Z)) : mapper_error + mapper :=
  add_entries ignore_case (Mapper [] []) map.

(* EnumMapper::name(): core/enum.hpp:228-235 *)
Definition mapper_name (m : mapper) (value : Z) : option (list Z) :=
  find_key Z.ltb (value_to_name m) value.

(* EnumMapper::parse(): core/enum.hpp:237-244 *)
Definition mapper_parse (ignore_case : bool) (m : mapper) (string : list Z) : option Z :=
  find_key (name_less ignore_case) (name_to_value m) string.

(* Enum::name(): core/enum.hpp:303-308; inl if an exception is thrown *)
Definition enum_name (ignore_case : bool) (map : list (Z * list Z)) (value : Z) : mapper_error + option (list Z) :=
  match make_mapper ignore_case map with
  | inl e => inl e
  | inr m => inr (mapper_name m value)
  end.

(* Enum::parse(): core/enum.hpp:311-321 *)
Definition enum_parse (ignore_case : bool) (map : list (Z * list Z)) (name : list Z) : mapper_error + option Z :=
  match make_mapper ignore_case map with
  | inl e => inl e
  | inr m =>
    match mapper_parse ignore_case m name with
    | Some value_2 => inr (Some value_2)
    | None => inr None
    end
  end.

Section Streams.
Context {C : Type} (ceqb : C -> C -> bool).
(* the character mapper and the character classification of the locale of the stream; narrow is with '\0' for what cannot
   be narrowed *)
Context (widen : Z -> C) (narrow : C -> Z) (is_alnum is_space : C -> bool).

(* what the output operator writes: a string of characters, or an integer, the formatting of which is left to the stream *)
Inductive output :=
| OutText (text : list C)
| OutInt (value : Z).

(* operator<<(): core/enum.hpp:324-338.  The stream is taken to be good, and its field width to be zero. *)
Definition write_enum (ignore_case : bool) (map : list (Z * list Z)) (e : Z) : mapper_error + output :=
  match enum_name ignore_case map e with
  | inl err => inl err
  | inr (Some string) => inr (OutText (List.map widen string))
  | inr None => inr (OutInt e)
  end.

(* std::basic_istream: remaining characters, std::ios_base::skipws, and the state.  Exceptions are not enabled, the
   stream buffer does not throw. *)
Record istream := IStream {
  in_text : list C;
  in_skipws : bool;
  in_eof : bool;
  in_fail : bool;
  in_bad : bool;
}.

Definition good (in_ : istream) : bool := negb (in_eof in_ || in_fail in_ || in_bad in_).

(* std::basic_ios::setstate() *)
Definition setstate (eof fail bad : bool) (in_ : istream) : istream :=
  IStream (in_text in_) (in_skipws in_) (in_eof in_ || eof) (in_fail in_ || fail) (in_bad in_ || bad).

Fixpoint skip_space (text : list C) : list C :=
  match text with
  | [] => []
  | ch :: rest => if is_space ch then skip_space rest else text
  end.

(* constructor of std::basic_istream::sentry, with noskipws = false, and no tied stream *)
Definition sentry (in_ : istream) : bool * istream :=
  if good in_ then
    if in_skipws in_ then
      let text := skip_space (in_text in_) in
      let in_2 := IStream text (in_skipws in_) (in_eof in_) (in_fail in_) (in_bad in_) in
      match text with
      | [] => (false, setstate true true false in_2)
      | _ :: _ => (true, in_2)
      end
    else (true, in_)
  else (false, setstate false true false in_).

(* the loop of the stream input operator: core/enum.hpp:355-364, ch is the current character, and text is what comes after
   it.  The result is None if the operator is to return false, otherwise the contents of the buffer.  Then, the remaining
   characters of the stream buffer, and whether the end of input was seen (core/stream_input.hpp:176-186). *)
Fixpoint read_loop (ch : C) (text : list C) (buffer : list C) : option (list C) * list C * bool :=
  let underscore := widen 95 in
  if negb (is_alnum ch) && negb (ceqb ch underscore) then
    match buffer with
    | _ :: _ => (Some buffer, ch :: text, false)
    | [] => (None, ch :: text, false)
    end
  else
    let buffer := buffer ++ [ch] in
    match text with
    | [] => (Some buffer, [], true)
    | ch :: text => read_loop ch text buffer
    end.

(* the function passed to istream_sentry(): core/enum.hpp:344-374.  The result of the function is that of parse(), where
   failures are also None, and inl is an exception. *)
Definition read_func (ignore_case : bool) (map : list (Z * list Z)) (text : list C) :
    (mapper_error + option Z) * list C * bool :=
  match text with
  | [] => (inr None, [], true)
  | ch :: text =>
    match read_loop ch text [] with
    | (None, rest, end_of_input) => (inr None, rest, end_of_input)
    | (Some string, rest, end_of_input) =>
      let string_2 := List.map narrow string in
      (enum_parse ignore_case map string_2, rest, end_of_input)
    end
  end.

(* operator>>(): core/enum.hpp:341-375, with istream_sentry(): core/stream_input.hpp:132-150.  e is the old value of the
   enumeration object, the result has its new value. *)
Definition read_enum (ignore_case : bool) (map : list (Z * list Z)) (in_ : istream) (e : Z) : istream * Z :=
  match sentry in_ with
  | (false, in_2) => (in_2, e)
  | (true, in_2) =>
    match read_func ignore_case map (in_text in_2) with
    | (res, rest, end_of_input) =>
      let in_3 := IStream rest (in_skipws in_2) (in_eof in_2) (in_fail in_2) (in_bad in_2) in
      match res with
      | inl _ => (setstate false false true in_3, e)
      | inr (Some value) => (setstate end_of_input false false in_3, value)
      | inr None => (setstate end_of_input true false in_3, e)
      end
    end
  end.

(* operator>>() for unwrapped enumeration values: core/enum.hpp:394-403 *)
Definition read_plain (ignore_case : bool) (map : list (Z * list Z)) (in_ : istream) (e : Z) : istream * Z :=
  let (in_2, f) := read_enum ignore_case map in_ 0 in
  if negb (in_fail in_2 || in_bad in_2) then (in_2, f) else (in_2, e).
End Streams.
