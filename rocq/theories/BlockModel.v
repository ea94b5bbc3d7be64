(* Model of image blocks (image/block.hpp) on a platform where int has 32 bits, and std::size_t and std::ptrdiff_t have 64 *)
From Coq Require Import ZArith Bool List.
From Verif Require Import CInt IntModel ArrLib.
Import ListNotations.
Local Open Scope Z_scope.

Definition t_diff : ity := ITy 64 true.
Definition t_size : ity := ITy 64 false.

(* Undef is for undefined behaviour *)
Inductive result (A : Type) := Ok (x : A) | Overflow | BufferTooSmall | Undef.
Arguments Ok {A} x.
Arguments Overflow {A}.
Arguments BufferTooSmall {A}.
Arguments Undef {A}.
Definition rbind {A B} (m : result A) (k : A -> result B) : result B :=
  match m with Ok x => k x | Overflow => Overflow | BufferTooSmall => BufferTooSmall | Undef => Undef end.

(* int_mul: core/integer.hpp:1647-1652; the left operand is a std::ptrdiff_t and the right one is an int *)
Definition int_mul (l r : Z) : result Z :=
  match try_int_mul t_diff t_int l r with
  | Some (true, x) => Ok x
  | Some (false, _) => Overflow
  | None => Undef
  end.

(* int_cast<std::size_t>: core/integer.hpp:1205-1211 *)
Definition int_cast_size (v : Z) : result Z :=
  match try_int_cast t_size t_diff v 0 with
  | (true, x) => Ok x
  | (false, _) => Overflow
  end.

(* Block::determine_buffer_size: image/block.hpp:249-256 *)
Definition determine_buffer_size (num_channels width height : Z) : result Z :=
  rbind (int_mul 1 num_channels) (fun size =>
  rbind (int_mul size width) (fun size =>
  rbind (int_mul size height) (fun size =>
  int_cast_size size))).

(* Block::verify_buffer_size: image/block.hpp:239-245 *)
Definition verify_buffer_size (num_channels buffer_size width height : Z) : result unit :=
  rbind (determine_buffer_size num_channels width height) (fun min_buffer_size =>
  if min_buffer_size <=? buffer_size then Ok tt else BufferTooSmall).

Section Block.
Context {A : Type} (zero : A).

(* Block: image/block.hpp:55-92.  Simplification: the memory is part of the block, so ownership is not modelled *)
Record block := Blk { m_width : Z; m_height : Z; m_buffer : list A }.

(* Block::Block(Size): image/block.hpp:174-181; components are value-initialized.  Memory is assumed to be available *)
Definition block_new (num_channels width height : Z) : result block :=
  rbind (determine_buffer_size num_channels width height) (fun buffer_size =>
  Ok (Blk width height (repeat zero (Z.to_nat buffer_size)))).

(* Block::Block(Size, span_type), Block::Block(Size, std::unique_ptr<comp_type[]>, std::size_t): image/block.hpp:185-200 *)
Definition block_with (num_channels width height : Z) (buffer : list A) : result block :=
  rbind (verify_buffer_size num_channels (Z.of_nat (length buffer)) width height) (fun _ =>
  Ok (Blk width height buffer)).

(* multiplication in type std::ptrdiff_t *)
Definition mul (x y : Z) : option Z := if in_rangeb t_diff (x * y) then Some (x * y) else None.

(* a pointer is a position in the buffer *)
Definition move (b : block) (ptr n : Z) : option Z :=
  if (0 <=? ptr + n) && (ptr + n <=? Z.of_nat (length (m_buffer b))) then Some (ptr + n) else None.

(* Block::make_tray: image/block.hpp:260-267; the strides *)
Definition make_tray (num_channels : Z) (b : block) : option (Z * Z) :=
  let horz_stride := num_channels in
  let? vert_stride := mul (m_width b) horz_stride in
  Some (horz_stride, vert_stride).

(* Iter::operator(): image/iter.hpp:292-298 *)
Definition iter_at (b : block) (horz_stride vert_stride x y : Z) : option Z :=
  let? n := mul x horz_stride in
  let? ptr := move b 0 n in
  let? n := mul y vert_stride in
  move b ptr n.

(* PixelBlock::get_pixel: image/block.hpp:271-277.  None if behaviour is undefined.  IndexBlock::get_index (281-285) is the
   case of one channel. *)
Definition get_pixel (num_channels : Z) (b : block) (x y : Z) : option (list A) :=
  let? strides := make_tray num_channels b in
  let? ptr := iter_at b (fst strides) (snd strides) x y in
  let? _ := move b ptr num_channels in
  Some (firstn (Z.to_nat num_channels) (skipn (Z.to_nat ptr) (m_buffer b))).
End Block.
Arguments block A : clear implicits.
