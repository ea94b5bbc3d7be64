(* Model of wildcard filters of tests: check/wildcard_filter.hpp and wildcard_filter.cpp, and of the splitting of strings into words:
   BasicStringSplitter and for_each_word() of core/string.hpp.

   The matchers are those of StringMatcherModel.v: characters are integers in [kmin, kmax], and fuel bounds the number of states of a
   matcher under construction.  Widening does not change characters. *)
From Coq Require Import ZArith Bool List Arith.
From Verif Require Import StringMatcherModel ArrLib.
Import ListNotations.
Open Scope nat_scope.

(* the first loop of BasicStringSplitter::next(): string.hpp:303-313 *)
Fixpoint skip_delims (delim : Z) (cur : list Z) : list Z :=
  match cur with
  | [] => []
  | c :: rest => if Z.eqb c delim then skip_delims delim rest else cur
  end.

(* the second loop of BasicStringSplitter::next(): string.hpp:315-317, after the first increment of m_cur *)
Fixpoint take_word (delim : Z) (cur : list Z) : list Z * list Z :=
  match cur with
  | [] => ([], [])
  | c :: rest =>
    if negb (Z.eqb c delim) then let (word, cur) := take_word delim rest in (c :: word, cur)
    else ([], cur)
  end.

(* BasicStringSplitter::next: string.hpp:300-321.  None if false is returned; otherwise the word and what is left *)
Definition next_word (delim : Z) (cur : list Z) : option (list Z * list Z) :=
  match skip_delims delim cur with
  | [] => None
  | c :: rest => let (word, cur) := take_word delim rest in Some (c :: word, cur)
  end.

(* for_each_word: string.hpp:274-281, the words that the function is called for *)
Fixpoint words_loop (fuel : nat) (delim : Z) (cur : list Z) : option (list (list Z)) :=
  match fuel with
  | O => None
  | S fuel =>
    match next_word delim cur with
    | None => Some []
    | Some (word, cur) => let? words := words_loop fuel delim cur in Some (word :: words)
    end
  end.
Definition for_each_word (str : list Z) : option (list (list Z)) := words_loop (S (length str)) 32%Z str.

Section Filter.
Variables (kmin kmax : Z) (fuel : nat).

Definition star : Z := 42%Z.

(* a default constructed matcher *)
Definition no_matcher : matcher := Matcher [] [] [].

(* Builder::build() with a matcher as argument, ambiguity between patterns allowed *)
Definition build_matcher (b : builder) : option matcher :=
  let? r := build kmin kmax fuel true b in
  match r with Built m => Some m | Ambiguity _ _ => None end.

(* make_include_matcher(): wildcard_filter.cpp:36-41 *)
Definition make_include_matcher (b : builder) : option (builder * matcher) :=
  let? b := match b_patterns b with [] => add_pattern star b [star] 0%Z | _ => Some b end in
  let? m := build_matcher b in
  Some (b, m).

(* the function called for each word: wildcard_filter.cpp:42-50; the state is the builder and m_include_matcher *)
Definition on_word (st : builder * matcher) (word : list Z) : option (builder * matcher) :=
  let (b, inc) := st in
  if negb (if list_eq_dec Z.eq_dec word [45%Z] then true else false) then
    let? b := add_pattern star b word 0%Z in
    Some (b, inc)
  else
    let? (b, inc) := make_include_matcher b in
    Some (clear b, inc).

Fixpoint on_words (st : builder * matcher) (words : list (list Z)) : option (builder * matcher) :=
  match words with
  | [] => Some st
  | word :: words => let? st := on_word st word in on_words st words
  end.

(* WildcardFilter::WildcardFilter: wildcard_filter.cpp:30-57.  The two matchers *)
Definition make_filter (filter : list Z) : option (matcher * matcher) :=
  let? words := for_each_word filter in
  let? (b, inc) := on_words (new_builder, no_matcher) words in
  match m_patterns inc with
  | [] => let? (_, inc) := make_include_matcher b in Some (inc, no_matcher)
  | _ => let? exc := build_matcher b in Some (inc, exc)
  end.

(* WildcardFilter::include: wildcard_filter.cpp:60-63 *)
Definition include (f : matcher * matcher) (name : list Z) : option bool :=
  let? r := match_string (fst f) name in
  match r with
  | None => Some false
  | Some _ =>
    let? r := match_string (snd f) name in
    Some (match r with None => true | Some _ => false end)
  end.
End Filter.
