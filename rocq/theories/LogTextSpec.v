(* Messages as lines *)
From Coq Require Import ZArith List.
Import ListNotations.

(* lines with newlines between them *)
Fixpoint join (newline : Z) (line : list Z) (lines : list (list Z)) : list Z :=
  match lines with
  | [] => line
  | line' :: lines => line ++ newline :: join newline line' lines
  end.

(* every line with a prefix and a newline after it *)
Definition prefixed (newline : Z) (prefix : list Z) (lines : list (list Z)) : list Z :=
  concat (map (fun line => prefix ++ line ++ [newline]) lines).
