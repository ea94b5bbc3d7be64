(* Model of pixel positions, sizes and boxes (src/archon/util/pixel_pos.hpp,
   src/archon/util/pixel_size.hpp, src/archon/util/pixel_box.hpp).  Components are of
   type int; overflow of int is None. *)
From Coq Require Import ZArith Bool.
From Verif Require Import CInt IntModel.
From Verif Require Import ArrLib.
Open Scope Z_scope.

Record pos := Pos { px : Z; py : Z }.
Record size := Size { width : Z; height : Z }.
Record box := Box { bpos : pos; bsize : size }.

(* int arithmetic *)
Definition isub (a b : Z) : option Z := if in_rangeb t_int (a - b) then Some (a - b) else None.
Definition iadd (a b : Z) : option Z := if in_rangeb t_int (a + b) then Some (a + b) else None.

(* Size::is_valid: pixel_size.hpp:264-267 *)
Definition size_valid (s : size) : bool := (0 <=? width s) && (0 <=? height s).

(* Size::is_empty: pixel_size.hpp:276-279 *)
Definition size_empty (s : size) : bool := (width s =? 0) || (height s =? 0).

(* Size::operator==: pixel_size.hpp:294-297, operator<: pixel_size.hpp:306-309 *)
Definition size_eqb (a b : size) : bool := (width a =? width b) && (height a =? height b).
Definition size_ltb (a b : size) : bool :=
  (width a <? width b) || ((width a =? width b) && (height a <? height b)).

(* core::can_int_add for int: core/integer.hpp:1697-1700 *)
Definition can_int_add (a b : Z) : bool :=
  match try_int_add t_int t_int a b with Some (true, _) => true | _ => false end.

(* Pos::can_add: pixel_pos.hpp:228-231 *)
Definition pos_can_add (p : pos) (s : size) : bool :=
  can_int_add (px p) (width s) && can_int_add (py p) (height s).

(* Pos::operator==: pixel_pos.hpp:240-243, operator<: pixel_pos.hpp:252-255 *)
Definition pos_eqb (a b : pos) : bool := (px a =? px b) && (py a =? py b).
Definition pos_ltb (a b : pos) : bool := (px a <? px b) || ((px a =? px b) && (py a <? py b)).

(* Box::is_valid: pixel_box.hpp:198-201 *)
Definition box_valid (b : box) : bool := size_valid (bsize b) && pos_can_add (bpos b) (bsize b).

(* Box::is_empty: pixel_box.hpp:204-207 *)
Definition box_empty (b : box) : bool := size_empty (bsize b).

(* one dimension of Box::intersects: pixel_box.hpp:212-213 and 214-215 *)
Definition intersects_dim (p s op os : Z) : option bool :=
  if p <? op then
    let? d := isub op p in Some ((d <? s) && (0 <? os))
  else
    let? d := isub p op in Some ((d <? os) && (0 <? s)).

(* Box::intersects: pixel_box.hpp:210-217 *)
Definition intersects (b other : box) : option bool :=
  let? horz := intersects_dim (px (bpos b)) (width (bsize b)) (px (bpos other)) (width (bsize other)) in
  let? vert := intersects_dim (py (bpos b)) (height (bsize b)) (py (bpos other)) (height (bsize other)) in
  Some (horz && vert).

(* one dimension of Box::contains: pixel_box.hpp:222-223 and 224-225 *)
Definition contains_dim (p s op os : Z) : option bool :=
  if (p <=? op) && (os <=? s) then
    let? d := isub op p in
    let? r := isub s os in
    Some (d <=? r)
  else Some false.

(* Box::contains: pixel_box.hpp:220-227 *)
Definition contains (b other : box) : option bool :=
  let? horz := contains_dim (px (bpos b)) (width (bsize b)) (px (bpos other)) (width (bsize other)) in
  let? vert := contains_dim (py (bpos b)) (height (bsize b)) (py (bpos other)) (height (bsize other)) in
  Some (horz && vert).

(* Box::contained_in: pixel_box.hpp:230-233 *)
Definition contained_in (b other : box) : option bool := contains other b.

(* Box::contains_pixel_at: pixel_box.hpp:236-239 *)
Definition contains_pixel_at (b : box) (p : pos) : option bool := contains b (Box p (Size 1 1)).

(* one dimension of Box::clip: pixel_box.hpp:247-259 and 261-273.  The result is None
   for overflow, Some None when the function returns false. *)
Definition clip_dim (p s op os : Z) : option (option (Z * Z)) :=
  if p <=? op then
    let? d := isub op p in
    let? discr := isub s d in
    if (discr <=? 0) || (os <=? 0) then Some None
    else Some (Some (op, Z.min os discr))
  else
    let? d := isub p op in
    let? discr := isub os d in
    if (discr <=? 0) || (s <=? 0) then Some None
    else Some (Some (p, Z.min s discr)).

(* Box::clip: pixel_box.hpp:242-277.  The pair is the returned value and the new value
   of other. *)
Definition clip (b other : box) : option (bool * box) :=
  let? h := clip_dim (px (bpos b)) (width (bsize b)) (px (bpos other)) (width (bsize other)) in
  match h with
  | None => Some (false, other)
  | Some (x, w) =>
    let? v := clip_dim (py (bpos b)) (height (bsize b)) (py (bpos other)) (height (bsize other)) in
    match v with
    | None => Some (false, other)
    | Some (y, ht) => Some (true, Box (Pos x y) (Size w ht))
    end
  end.

(* Box::operator==: pixel_box.hpp:280-283, operator<: pixel_box.hpp:292-295 *)
Definition box_eqb (a b : box) : bool := pos_eqb (bpos a) (bpos b) && size_eqb (bsize a) (bsize b).
Definition box_ltb (a b : box) : bool :=
  pos_ltb (bpos a) (bpos b) || (pos_eqb (bpos a) (bpos b) && size_ltb (bsize a) (bsize b)).
