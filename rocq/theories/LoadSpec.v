(* What a source of bytes is to deliver, and which file format is to be chosen *)
From Coq Require Import ZArith List.
From Verif Require Import LoadModel.
Import ListNotations.

(* res is an admissible result of reading into a buffer of the specified size, when the source has delivered pos of the
   bytes in data *)
Definition delivers (data : list Z) (pos size : nat) (res : option (list Z)) : Prop :=
  match res with
  | Some bytes =>
    length bytes <= size /\
    (exists after, skipn pos data = bytes ++ after) /\
    (0 < size -> bytes = [] -> length data <= pos)
  | None => True
  end.

Definition advance (pos : nat) (res : option (list Z)) : nat :=
  match res with Some bytes => pos + length bytes | None => pos end.

(* the function may return v (or throw if v is None) when it reads from a source with the specified data, starting at the
   specified position *)
Inductive may_return (data : list Z) : nat -> reader -> option bool -> Prop :=
| may_value : forall pos v, may_return data pos (Return v) (Some v)
| may_throw : forall pos, may_return data pos Throw None
| may_read : forall pos size cont res v, delivers data pos size res ->
    may_return data (advance pos res) (cont res) v -> may_return data pos (Read size cont) v.

(* operations on a rewindable source *)
Inductive source_op := OpRead (size : nat) | OpRewind | OpRelease.

(* what the documentation says about a sequence of operations, and their results, pos is the position, released is
   whether the source is released; rewinding is then not allowed *)
Inductive source_trace (data : list Z) : nat -> bool -> list source_op -> list (option (list Z)) -> Prop :=
| tr_nil : forall pos released, source_trace data pos released [] []
| tr_read : forall pos released size res ops out, delivers data pos size res ->
    source_trace data (advance pos res) released ops out ->
    source_trace data pos released (OpRead size :: ops) (res :: out)
| tr_rewind : forall pos ops out, source_trace data 0 false ops out ->
    source_trace data pos false (OpRewind :: ops) out
| tr_release : forall pos released ops out, source_trace data pos true ops out ->
    source_trace data pos released (OpRelease :: ops) out.

(* no rewinding after release *)
Fixpoint ops_allowed (released : bool) (ops : list source_op) : Prop :=
  match ops with
  | [] => True
  | OpRead _ :: ops => ops_allowed released ops
  | OpRewind :: ops => released = false /\ ops_allowed released ops
  | OpRelease :: ops => ops_allowed true ops
  end.
