(* Independent specification for memory streams. *)
From Coq Require Import ZArith Bool List.
From Verif Require Import MemStreamModel.
Import ListNotations.
Open Scope Z_scope.

Section Spec.
  Context {C : Type} (null : C).

  (* An output file of limited size: contents and position *)
  Definition file : Type := list C * nat.

  (* Write from the position on, as much as there is room for *)
  Definition f_write (limit : nat) (f : file) (str : list C) : Z * file :=
    let (contents, pos) := f in
    let n := Nat.min (length str) (limit - pos) in
    (Z.of_nat n, (firstn pos contents ++ firstn n str ++ skipn (pos + n) contents, (pos + n)%nat)).

  (* Go to a position, extending the contents as needed *)
  Definition f_seek (limit : nat) (f : file) (target : Z) : Z * file :=
    let (contents, pos) := f in
    if (0 <=? target) && (target <=? Z.of_nat limit) then
      let p := Z.to_nat target in
      (target, (contents ++ repeat null (p - length contents), p))
    else (-1, f).

  Definition f_step (limit : nat) (f : file) (op : oop C) : Z * file :=
    match op with
    | Write str => f_write limit f str
    | Oseekoff off dir which =>
      let base := match dir with Beg => 0 | Cur => Z.of_nat (snd f) | End => Z.of_nat (length (fst f)) end in
      if which then f_seek limit f (base + off) else (-1, f)
    | Oseekpos pos init which => if init && which then f_seek limit f pos else (-1, f)
    end.
  Fixpoint f_run (limit : nat) (f : file) (ops : list (oop C)) : list Z * file :=
    match ops with
    | [] => ([], f)
    | op :: ops =>
      let (r, f) := f_step limit f op in
      let (rs, f) := f_run limit f ops in
      (r :: rs, f)
    end.

  (* Offsets are of type std::streamoff *)
  Definition off_ok (x : Z) : Prop := - 2 ^ 63 <= x < 2 ^ 63.
  Definition oop_ok (op : oop C) : Prop :=
    match op with
    | Write _ => True
    | Oseekoff off _ _ => off_ok off
    | Oseekpos pos _ _ => off_ok pos
    end.

  (* An input file: what was read (in reverse order) and what is to be read *)
  Definition ifile : Type := list C * list C.
  Definition g_seek (f : ifile) (target : Z) : Z * ifile :=
    let all := rev (fst f) ++ snd f in
    if (0 <=? target) && (target <=? Z.of_nat (length all)) then
      (target, (rev (firstn (Z.to_nat target) all), skipn (Z.to_nat target) all))
    else (-1, f).
  Definition g_step (f : ifile) (op : iop) : iresult C * ifile :=
    let (before, after) := f in
    match op with
    | Read n => (Chars (firstn n after), (rev (firstn n after) ++ before, skipn n after))
    | Unget =>
      match before with
      | c :: before => (Char (Some c), (before, c :: after))
      | [] => (Char None, f)
      end
    | Iseekoff off dir which =>
      let base := match dir with
                  | Beg => 0
                  | Cur => Z.of_nat (length before)
                  | End => Z.of_nat (length before + length after)
                  end in
      if which then let (r, f) := g_seek f (base + off) in (Pos r, f) else (Pos (-1), f)
    | Iseekpos pos init which =>
      if init && which then let (r, f) := g_seek f pos in (Pos r, f) else (Pos (-1), f)
    end.
  Fixpoint g_run (f : ifile) (ops : list iop) : list (iresult C) * ifile :=
    match ops with
    | [] => ([], f)
    | op :: ops =>
      let (r, f) := g_step f op in
      let (rs, f) := g_run f ops in
      (r :: rs, f)
    end.
  Definition iop_ok (op : iop) : Prop :=
    match op with
    | Iseekoff off _ _ => off_ok off
    | Iseekpos pos _ _ => off_ok pos
    | _ => True
    end.

  (* What an operation on a seed memory stream adds to the contents *)
  Definition added (op : sop C) : list C :=
    match op with
    | Sputc c => [c]
    | Sputn str | Append str => str
    | AppendFill n c => repeat c (Z.to_nat n)
    | Reserve _ | Clear => []
    end.
  (* Contents after operations, for each of which it is known whether it threw *)
  Fixpoint contents (acc : list C) (ops : list (sop C)) (threw : list bool) : list C :=
    match ops, threw with
    | Clear :: ops, _ :: threw => contents [] ops threw
    | op :: ops, t :: threw => contents (if t then acc else acc ++ added op) ops threw
    | _, _ => acc
    end.
  (* Sizes are of type std::size_t; strings are shorter than the greatest std::streamsize *)
  Definition sop_ok (op : sop C) : Prop :=
    match op with
    | Sputc _ | Clear => True
    | Sputn str | Append str => Z.of_nat (length str) < 2 ^ 63
    | AppendFill n _ => 0 <= n < 2 ^ 64
    | Reserve n => 0 <= n < 2 ^ 64
    end.
End Spec.
Arguments file : clear implicits.
Arguments ifile : clear implicits.
