(* What the operations of a deque do to a mathematical sequence (C23, C24); independent of
   the model of the implementation. *)
From Coq Require Import ZArith List.
Import ListNotations.

Section Spec.
Context {T : Type}.

(* A constructor argument is None if the constructor throws. *)
Inductive dop :=
| EmplaceFront (x : option T)
| EmplaceBack (x : option T)
| PopFront
| PopBack
| AppendFill (n : nat) (make : nat -> option T)
| AppendCopy (src : list (option T))
| AppendInput (src : list (option T))
| Clear
| Resize (n : nat) (make : nat -> option T)
| Reserve (n : nat)
| ShrinkToFit.

(* The effect of an operation in which no constructor throws *)
Inductive dstep : dop -> list T -> list T -> Prop :=
| s_emplace_front x xs : dstep (EmplaceFront (Some x)) xs (x :: xs)
| s_emplace_back x xs : dstep (EmplaceBack (Some x)) xs (xs ++ [x])
| s_pop_front x xs : dstep PopFront (x :: xs) xs
| s_pop_back x xs : dstep PopBack (xs ++ [x]) xs
| s_append_fill n make ys xs : map make (seq 0 n) = map Some ys -> dstep (AppendFill n make) xs (xs ++ ys)
| s_append_copy ys xs : dstep (AppendCopy (map Some ys)) xs (xs ++ ys)
| s_append_input ys xs : dstep (AppendInput (map Some ys)) xs (xs ++ ys)
| s_clear xs : dstep Clear xs []
| s_resize_down n make xs ys : n = length xs -> dstep (Resize n make) (xs ++ ys) xs
| s_resize_up n make xs ys : length xs < n -> map make (seq 0 (n - length xs)) = map Some ys ->
    dstep (Resize n make) xs (xs ++ ys)
| s_reserve n xs : dstep (Reserve n) xs xs
| s_shrink xs : dstep ShrinkToFit xs xs.

(* How much room an operation asks for *)
Definition demand (o : dop) (xs : list T) : nat :=
  match o with
  | EmplaceFront _ | EmplaceBack _ => length xs + 1
  | AppendFill n _ => length xs + n
  | Resize n _ | Reserve n => Nat.max (length xs) n
  | AppendCopy src | AppendInput src => length xs + length src
  | _ => length xs
  end.

(* A sequence of operations that stays within a limit *)
Inductive drun (limit : nat -> Prop) : list dop -> list T -> list T -> Prop :=
| r_nil xs : drun limit [] xs xs
| r_cons o os xs ys zs : dstep o xs ys -> limit (demand o xs) -> drun limit os ys zs ->
    drun limit (o :: os) xs zs.

End Spec.
Arguments dop : clear implicits.
