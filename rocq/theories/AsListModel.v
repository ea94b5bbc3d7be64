(* Model of formatting and parsing as list (src/archon/core/as_list.hpp).

   Characters are natural numbers, and widen() is the identity.  Pointers into the string are
   represented by the text between them.  Output has no field width.  Nothing throws. *)
From Coq Require Import List Arith Bool.
From Verif Require Import ArrLib.
Import ListNotations.

Definition text := list nat.
Definition space_char : nat := 32.

(* AsListSpace: as_list.hpp:50-81 *)
Inductive as_list_space := sp_auto | sp_none | sp_allow | sp_tight | sp_loose.

(* AsListConfig: as_list.hpp:90-121 *)
Record config := Config { separator : nat; bracketed : bool; opening_bracket : nat; closing_bracket : nat; space : as_list_space }.

Section AsList.
  Variable V : Type.
  (* what func(elem) is formatted as *)
  Variable format : V -> text.
  (* src.delegate(substr, func(elem)): whether it succeeds, and the new value of the element *)
  Variable delegate : text -> V -> bool * V.
  Variable c : config.

  (* ---- formatting ---- *)

  (* the switch: as_list.hpp:299-313 *)
  Definition space_inside_brackets : bool := match space c with sp_loose => true | _ => false end.
  Definition space_after_separator : bool :=
    match space c with
    | sp_auto => negb (separator c =? space_char)
    | sp_none | sp_allow => false
    | sp_tight | sp_loose => true
    end.

  (* the loop: as_list.hpp:320-330.  The first element is entered in the middle. *)
  Fixpoint format_more (l : list V) : text :=
    match l with
    | [] => []
    | v :: l => separator c :: (if space_after_separator then [space_char] else []) ++ format v ++ format_more l
    end.
  Definition format_elems (l : list V) : text := match l with [] => [] | v :: l => format v ++ format_more l end.

  (* format_as_list: as_list.hpp:289-338 *)
  Definition format_as_list (l : list V) : text :=
    (if bracketed c then opening_bracket c :: (if space_inside_brackets then [space_char] else []) else []) ++
    format_elems l ++
    (if bracketed c then (if space_inside_brackets then [space_char] else []) ++ [closing_bracket c] else []).

  (* ---- parsing ---- *)

  (* as_list.hpp:361-373 *)
  Definition allow_space : bool := match space c with sp_none => false | _ => true end.

  (* while (... && begin_2[0] == space) ++begin_2: as_list.hpp:384-385, 403-404 *)
  Fixpoint skip_spaces (s : text) : text :=
    match s with
    | [] => []
    | x :: s' => if x =? space_char then skip_spaces s' else s
    end.
  (* while (... && end_2[-1] == space) --end_2: as_list.hpp:386-387 *)
  Definition drop_spaces (s : text) : text := rev (skip_spaces (rev s)).

  (* std::find(i, end_2, separator): as_list.hpp:394.  What comes before the separator, and, if
     there is one, what comes after it *)
  Fixpoint find_separator (s : text) : text * option text :=
    match s with
    | [] => ([], None)
    | x :: s => if x =? separator c then ([], Some s) else let (a, b) := find_separator s in (x :: a, b)
    end.

  (* the loop: as_list.hpp:393-417.  The result is whether parsing succeeded, the new contents of
     the sequence, and how many elements were reached.  It is not entered with an empty
     sequence. *)
  Fixpoint parse_elems (l : list V) (s : text) : bool * list V * nat :=
    match l with
    | [] => (false, [], 0)
    | v :: l =>
      let (substr, rest) := find_separator s in
      let (success, v) := delegate substr v in
      if success then
        match l with
        | [] =>
          match rest with
          | None => (true, [v], 1)
          | Some _ => (false, [v], 0)
          end
        | _ =>
          match rest with
          | Some s =>
            let '(success, l, n) := parse_elems l (if allow_space then skip_spaces s else s) in
            (success, v :: l, S n)
          | None => (true, v :: l, 1)
          end
        end
      else (false, v :: l, 0)
    end.

  (* parse_as_list: as_list.hpp:352-424 *)
  Definition parse_as_list (l : list V) (str : text) : bool * list V * nat :=
    let inner :=
      if bracketed c then
        match str with
        | [] => None
        | x :: s =>
          if negb (x =? opening_bracket c) then None else
          match rev s with
          | [] => None
          | y :: r =>
            if negb (y =? closing_bracket c) then None else
            let s := rev r in
            Some (if allow_space then drop_spaces (skip_spaces s) else s)
          end
        end
      else Some str in
    match inner with
    | None => (false, l, 0)
    | Some s =>
      match l with
      | _ :: _ => parse_elems l s
      | [] => (length str =? 0, l, 0)
      end
    end.

  (* parse_value for AsList and AsListFunc: as_list.hpp:453-462, 481-490 *)
  Definition parse_list (l : list V) (str : text) : bool * list V :=
    let '(success, l', reached) := parse_as_list l str in
    (success && (reached =? length l), l').

  (* ---- alternative version ---- *)

  Variable eqb : V -> V -> bool.
  Variable default : V.

  (* the loops: as_list.hpp:506-513, 556-563, with access by index *)
  Fixpoint elide (min_elems : nat) (copy_last : bool) (l : list V) (i : nat) : nat :=
    match i with
    | 0 => 0
    | S i' =>
      if (min_elems <? i) && eqb (nth i' l default) (if copy_last then nth (i' - 1) l default else default)
      then elide min_elems copy_last l i' else i
    end.

  (* operator<< for AsListA and AsListFuncA: as_list.hpp:501-517, 551-567 *)
  Definition format_list_a (l : list V) (min_elems : nat) (copy_last : bool) : text :=
    let i := elide (max min_elems 1) copy_last l (length l) in
    format_as_list (firstn i l).

  (* parse_value for AsListA and AsListFuncA: as_list.hpp:520-539, 570-589.  None if the assertion
     fails. *)
  Definition parse_list_a (l : list V) (copy_last : bool) (str : text) : option (bool * list V) :=
    let '(success, l', reached) := parse_as_list l str in
    if success then
      match l with
      | [] => Some (true, l')
      | _ =>
        if 0 <? reached then
          let fill_val := if copy_last then nth (reached - 1) l' default else default in
          Some (true, firstn reached l' ++ repeat fill_val (length l' - reached))
        else None
      end
    else Some (false, l').

  (* ---- variable length ---- *)

  (* operator<< for AsListV and AsListFuncV: as_list.hpp:599-605, 630-636 *)
  Definition format_list_v (l : list V) (n : nat) : text := format_as_list (firstn (min n (length l)) l).

  (* parse_value for AsListV and AsListFuncV: as_list.hpp:608-619, 639-650.  The last part of the
     result is the new value of n. *)
  Definition parse_list_v (l : list V) (n : nat) (str : text) : bool * list V * nat :=
    let '(success, l', reached) := parse_as_list l str in
    if success then (true, l', reached) else (false, l', n).
End AsList.
