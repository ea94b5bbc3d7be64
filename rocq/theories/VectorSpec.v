(* What the operations of a vector do to a mathematical sequence (C25); independent of
   the model of the implementation. *)
From Coq Require Import ZArith List.
Import ListNotations.

Section Spec.
Context {T : Type}.

(* A constructor argument is None if the constructor throws. *)
Inductive vop :=
| EmplaceBack (x : option T)
| PopBack
| AppendFill (n : nat) (make : nat -> option T)
| AppendCopy (src : list (option T))
| AppendInput (src : list (option T))
| Insert (offset : nat) (x : option T)
| EraseRange (b e : nat)
| Clear
| Resize (n : nat) (make : nat -> option T)
| Reserve (n : nat)
| ShrinkToFit.

(* The effect of an operation in which no constructor throws *)
Inductive vstep : vop -> list T -> list T -> Prop :=
| s_emplace_back x xs : vstep (EmplaceBack (Some x)) xs (xs ++ [x])
| s_pop_back x xs : vstep PopBack (xs ++ [x]) xs
| s_append_fill n make ys xs : map make (seq 0 n) = map Some ys -> vstep (AppendFill n make) xs (xs ++ ys)
| s_append_copy ys xs : vstep (AppendCopy (map Some ys)) xs (xs ++ ys)
| s_append_input ys xs : vstep (AppendInput (map Some ys)) xs (xs ++ ys)
| s_insert x xs ys : vstep (Insert (length xs) (Some x)) (xs ++ ys) (xs ++ x :: ys)
| s_erase xs ys zs : vstep (EraseRange (length xs) (length xs + length ys)) (xs ++ ys ++ zs) (xs ++ zs)
| s_clear xs : vstep Clear xs []
| s_resize_down n make xs ys : n = length xs -> vstep (Resize n make) (xs ++ ys) xs
| s_resize_up n make xs ys : length xs < n -> map make (seq 0 (n - length xs)) = map Some ys ->
    vstep (Resize n make) xs (xs ++ ys)
| s_reserve n xs : vstep (Reserve n) xs xs
| s_shrink xs : vstep ShrinkToFit xs xs.

(* How much room an operation asks for *)
Definition demand (o : vop) (xs : list T) : nat :=
  length xs +
  match o with
  | EmplaceBack _ | Insert _ _ => 1
  | AppendFill n _ | Resize n _ | Reserve n => n
  | AppendCopy src | AppendInput src => length src
  | _ => 0
  end.

(* A sequence of operations that stays within limit elements, each satisfying P *)
Inductive vrun (P : vop -> list T -> Prop) (limit : nat -> Prop) :
    list vop -> list T -> list T -> Prop :=
| r_nil xs : vrun P limit [] xs xs
| r_cons o os xs ys zs : vstep o xs ys -> P o xs -> limit (demand o xs) -> vrun P limit os ys zs ->
    vrun P limit (o :: os) xs zs.

(* Resizing upwards starts from an empty vector *)
Definition resize_ok (o : vop) (xs : list T) : Prop :=
  match o with Resize n _ => n <= length xs \/ xs = [] | _ => True end.

End Spec.
Arguments vop : clear implicits.
