(* What it means to break text into lines.  Independent of the model. *)
From Coq Require Import ZArith List.
Import ListNotations.
Open Scope Z_scope.

Section Spec.
  (* the words of the text: space i is the size of the space in front of word i, size i the
     size of word i; there are n words and then a space of size trailing *)
  Variable n : nat.
  Variables space size : nat -> Z.
  Variable trailing : Z.

  (* the k words that begin with word i, with the spaces between them *)
  Fixpoint words_size (i k : nat) : Z :=
    match k with
    | O => 0
    | S O => size i
    | S k => words_size i k + space (i + k) + size (i + k)
    end.

  (* the size of a line that holds the words from i up to j - 1; the space at a line break
     vanishes, but the spaces at the ends of the text do not *)
  Definition text_size (i j : nat) : Z :=
    (if Nat.eqb i 0 then space 0 else 0) + words_size i (j - i) + (if Nat.eqb j n then trailing else 0).

  (* a line can hold one word, or as many words as fit *)
  Definition fits (line_size : Z) (i j : nat) : Prop := j = S i \/ text_size i j <= line_size.

  (* the square of the gap at the end of the line *)
  Definition gap (line_size : Z) (i j : nat) : Z :=
    if text_size i j <=? line_size then (line_size - text_size i j) ^ 2 else 0.

  (* the sizes of the lines *)
  Variable line : nat -> Z.

  (* layout k i breaks cost: the words from i to the end are broken into lines, beginning
     with line k; the words in breaks are the first ones of the lines after that; cost is
     the sum of the squares of the gaps of all lines but the last *)
  Inductive layout : nat -> nat -> list nat -> Z -> Prop :=
  | layout_last k i : (i < n)%nat -> fits (line k) i n -> layout k i [] 0
  | layout_break k i j breaks cost : (i < j < n)%nat -> fits (line k) i j -> layout (S k) j breaks cost ->
      layout k i (j :: breaks) (gap (line k) i j + cost).

  (* each line has as many words as can be *)
  Inductive greedy_layout : nat -> nat -> list nat -> Prop :=
  | greedy_last k i : (i < n)%nat -> fits (line k) i n -> greedy_layout k i []
  | greedy_break k i j breaks : (i < j < n)%nat -> fits (line k) i j -> ~ fits (line k) i (S j) ->
      greedy_layout (S k) j breaks -> greedy_layout k i (j :: breaks).

  Definition optimal (breaks : list nat) (cost : Z) : Prop :=
    layout 0 0 breaks cost /\ forall breaks' cost', layout 0 0 breaks' cost' -> cost <= cost'.
End Spec.

(* the sequence of line sizes given by a table of pairs of a size and the index of the pair
   for the next line *)
Fixpoint line_sizes (table : list (Z * nat)) (first : nat) (k : nat) : Z :=
  match nth_error table first with
  | None => 0
  | Some (size, next) => match k with O => size | S k => line_sizes table next k end
  end.
