(* Model of string templates (src/archon/core/string_template.hpp).

   Characters are natural numbers, and widen() maps the characters of the basic source character
   set to their codes.  narrow() is a parameter: it gives 0 for characters that have no narrow
   counterpart (702).  Error messages are given by what goes into them. *)
From Coq Require Import List Arith Bool.
From Verif Require Import ArrLib.
Import ListNotations.

Definition str := list nat.
Definition str_eqb (a b : str) : bool := if list_eq_dec Nat.eq_dec a b then true else false.

(* string_template.hpp:658-660 *)
Definition lead_char : nat := 64.
Definition open_char : nat := 123.
Definition close_char : nat := 125.

(* std::basic_string_view::find() with a character, and a position to start from *)
Fixpoint find_in (ch : nat) (s : str) (k : nat) : option nat :=
  match s with
  | [] => None
  | c :: s => if c =? ch then Some k else find_in ch s (S k)
  end.
Definition find (ch : nat) (s : str) (pos : nat) : option nat := find_in ch (skipn pos s) pos.

(* std::basic_string_view::substr() *)
Definition substr (s : str) (pos n : nat) : option str := if pos <=? length s then Some (firstn n (skipn pos s)) else None.

(* Parser::Error, and what goes into the messages: string_template.hpp:326-332, 676, 686, 705 *)
Inductive terror_code := bad_syntax | bad_param_ref.
Inductive tmessage := at_end | at_offset (i : nat) | undefined (name ref : str).
Definition terror : Type := terror_code * tmessage.

Section StrTempl.
  (* the type of the context objects *)
  Variable A : Type.

  (* EvalFunc: string_template.hpp:133.  Given the context and the flags of the stream, it
     writes, it leaves the stream with certain flags, and it may throw (true). *)
  Definition eval_func : Type := A -> nat -> str * nat * bool.

  (* Parameters::Map::value_type, and the map: string_template.hpp:220.  The map is an
     association list. *)
  Definition param : Type := str * eval_func.
  Definition params : Type := list param.

  (* std::map::find() *)
  Fixpoint lookup (ps : params) (name : str) : option param :=
    match ps with
    | [] => None
    | p :: ps => if str_eqb (fst p) name then Some p else lookup ps name
    end.

  (* define: string_template.hpp:479-488, None for the exception *)
  Definition define (ps : params) (name : str) (f : eval_func) : option params :=
    match lookup ps name with
    | None => Some (ps ++ [(name, f)])
    | Some _ => None
    end.

  (* Substitution: string_template.hpp:401-404 *)
  Record subst := Subst { sb_begin : nat; sb_end : nat; sb_param : option param }.

  (* BasicStringTemplate: string_template.hpp:186-187 *)
  Record templ := Templ { tm_string : str; tm_substs : list subst }.

  (* what parsing ends with, and the errors that were passed to the error handler: false, in
     which case the template object is left alone, or true and the template *)
  Inductive parsed := Aborted (errors : list terror) | Parsed (t : templ) (errors : list terror).

  Section Parse.
    Variable narrow : nat -> nat.
    Variable ps : params.
    (* The error handler: whether to go on, given the errors before this one, and this one *)
    Variable handler : list terror -> terror -> bool.
    Variable string : str.

    (* the loop in do_try_parse: string_template.hpp:667-714.  None if fuel runs out, or if a
       character outside of the string is accessed. *)
    Fixpoint parse_loop (fuel curr : nat) (substs : list subst) (errors : list terror) : option parsed :=
      match fuel with
      | 0 => None
      | S fuel =>
        let error (e : terror) (curr : nat) :=
          if handler errors e then parse_loop fuel curr substs (errors ++ [e]) else Some (Aborted (errors ++ [e])) in
        match find lead_char string curr with
        | None => Some (Parsed (Templ string substs) errors)
        | Some i =>
          if i + 1 =? length string then error (bad_syntax, at_end) (i + 1)
          else
            let? ch := nth_error string (i + 1) in
            let refer (name : str) (curr : nat) :=
              if negb (ch =? lead_char) then
                match lookup ps (map narrow name) with
                | None =>
                  let? ref := substr string i (curr - i) in
                  error (bad_param_ref, undefined name ref) curr
                | Some p => parse_loop fuel curr (substs ++ [Subst i curr (Some p)]) errors
                end
              else parse_loop fuel curr (substs ++ [Subst i curr None]) errors in
            if ch =? open_char then
              match find close_char string (i + 2) with
              | None => error (bad_syntax, at_offset i) (i + 2)
              | Some j =>
                let? name := substr string (i + 2) (j - (i + 2)) in
                refer name (j + 1)
              end
            else
              let? name := substr string (i + 1) 1 in
              refer name (i + 2)
        end
      end.

    (* do_try_parse: string_template.hpp:654-720 *)
    Definition try_parse : option parsed := parse_loop (S (length string)) 0 [] [].
  End Parse.

  Section Expand.
    Variable args : A.
    Variable flags : nat.
    Variable string : str.

    (* the loop in expand: string_template.hpp:431-444.  out is what has been written.  The result
       is what has been written, the flags, and whether there was an exception. *)
    Fixpoint expand_loop (substs : list subst) (i : nat) (out : str) (cur : nat) : option (str * nat * bool) :=
      match substs with
      | [] =>
        let? s := substr string i (length string) in
        Some (out ++ s, cur, false)
      | sb :: substs =>
        let? s := substr string i (sb_begin sb - i) in
        let out := out ++ s in
        match sb_param sb with
        | Some p =>
          let '(w, cur, threw) := snd p args cur in
          if threw : bool then Some (out ++ w, cur, true) else expand_loop substs (sb_end sb) (out ++ w) flags
        | None => expand_loop substs (sb_end sb) (out ++ [lead_char]) cur
        end
      end.
  End Expand.

  (* expand: string_template.hpp:425-450.  The flags are restored in case of an exception. *)
  Definition expand (t : templ) (args : A) (flags : nat) : option (str * nat * bool) :=
    let? (out, cur, threw) := expand_loop args flags (tm_string t) (tm_substs t) 0 [] flags in
    Some (out, (if threw : bool then flags else cur), threw).

  (* refers_to: string_template.hpp:453-465 *)
  Fixpoint refers_in (substs : list subst) (name : str) : bool :=
    match substs with
    | [] => false
    | sb :: substs =>
      match sb_param sb with
      | Some p => if negb (str_eqb name (fst p)) then refers_in substs name else true
      | None => refers_in substs name
      end
    end.
  Definition refers_to (t : templ) (name : str) : bool := refers_in (tm_substs t) name.
End StrTempl.
