(* Model of core/deque.hpp (C23, C24).

   The allocated memory chunk is a list of slots as in UninitModel (length =
   m_allocated_size; [] if m_memory is null).  Sizes are natural numbers; additions and
   multiplications that the code checks for overflow are done with the models of
   try_int_add and try_int_mul at size_t of W bits.  Allocation failure (std::bad_alloc)
   is not modelled.  T has a non-throwing move constructor.  A constructor argument of
   type option T is None if the constructor throws; arguments do not refer to elements of
   the deque itself.  UB is undefined behaviour, a failed assertion, or a memory chunk
   released with a live object in it. *)
From Coq Require Import ZArith List Bool Arith.
From Verif Require Import CInt IntModel BufferModel ArrLib UninitModel.
Import ListNotations.
Open Scope nat_scope.

(* m_memory, m_offset, m_size, m_allocated_size: deque.hpp:219-241 *)
Record deq (T : Type) := Deq {
  d_mem : list (option T);
  d_offset : nat;
  d_size : nat;
  d_alloc : nat
}.
Arguments Deq {T}. Arguments d_mem {T}. Arguments d_offset {T}.
Arguments d_size {T}. Arguments d_alloc {T}.

Section Deque.
Context {T : Type}.
Context (W : Z).          (* width of size_t *)
Context (sizeof_T : Z).   (* sizeof (T) *)
Notation deq := (deq T).
Notation mem := (list (option T)).

Definition st_size : ity := ITy W false.

Definition dbind (r : outcome deq) (k : deq -> outcome deq) : outcome deq :=
  match r with Done d => k d | Throw d => Throw d | UB => UB end.
Definition dopt {A} (r : option A) (k : A -> outcome deq) : outcome deq :=
  match r with Some a => k a | None => UB end.

(* Deque(): the default member initialisers, deque.hpp:219-241 *)
Definition dempty : deq := Deq [] 0 0 0.

(* wrap: deque.hpp:1283-1290 *)
Definition wrap (d : deq) (index : nat) : nat :=
  let top := d_alloc d - d_offset d in
  if index <? top then d_offset d + index else index - top.

(* unwrap: deque.hpp:1293-1299 *)
Definition unwrap (d : deq) (index : nat) : nat :=
  if d_offset d <=? index then index - d_offset d else d_alloc d - (d_offset d - index).

(* circular_inc, circular_dec: deque.hpp:1264-1271, 1274-1280 *)
Definition circular_inc (d : deq) (index : nat) : nat :=
  let index_2 := index + 1 in
  if index_2 <? d_alloc d then index_2 else 0.
Definition circular_dec (d : deq) (index : nat) : nat :=
  if 0 <? index then index - 1 else d_alloc d - 1.

(* realloc: deque.hpp:1027-1056 *)
Definition realloc (d : deq) (new_allocated_size : nat) : outcome deq :=
  if negb (1 <? new_allocated_size) then UB
  else if negb (d_size d <? new_allocated_size) then UB
  else
    dopt (try_int_mul st_size st_size (Z.of_nat new_allocated_size) sizeof_T) (fun r =>
    if negb (fst r) then Throw d
    else
      let new_mem := repeat None new_allocated_size in
      let top := d_alloc d - d_offset d in
      dopt
        (if d_size d <=? top then
           uninit_safe_move (d_mem d) (d_offset d) (d_size d) new_mem 0
         else
           let? m2 := uninit_safe_move_a (d_mem d) (d_offset d) top new_mem 0 in
           let? mm := uninit_safe_move (d_mem d) 0 (d_size d - top) m2 top in
           let? m := uninit_destroy (fst mm) (d_offset d) top in
           Some (m, snd mm))
        (fun mm =>
      if all_free (fst mm) then Done (Deq (snd mm) 0 (d_size d) new_allocated_size) else UB)).

(* reserve: deque.hpp:744-763; the default argument for max_size of
   suggest_new_buffer_size is std::size_t(-1) *)
Definition reserve (d : deq) (min_capacity : Z) : outcome deq :=
  if (min_capacity =? 0)%Z then Done d
  else
    dopt (try_int_add st_size t_int min_capacity 1) (fun r =>
    if fst r then
      if (snd r <=? Z.of_nat (d_alloc d))%Z then Done d
      else
        dopt (suggest_new_buffer_size W (Z.of_nat (d_alloc d)) (snd r) (size_max W)) (fun n =>
        realloc d (Z.to_nat n))
    else Throw d).

(* reserve_extra: deque.hpp:732-741 *)
Definition reserve_extra (d : deq) (min_extra_capacity : nat) : outcome deq :=
  dopt (try_int_add st_size st_size (Z.of_nat (d_size d)) (Z.of_nat min_extra_capacity)) (fun r =>
  if fst r then reserve d (snd r) else Throw d).

(* shrink_to_fit: deque.hpp:766-782 *)
Definition shrink_to_fit (d : deq) : outcome deq :=
  if 0 <? d_size d then
    let new_allocated_size := d_size d + 1 in
    if new_allocated_size <? d_alloc d then realloc d new_allocated_size else Done d
  else if all_free (d_mem d) then Done (Deq [] 0 (d_size d) 0) else UB.

(* capacity: deque.hpp:785-789 *)
Definition capacity (d : deq) : nat := if 0 <? d_alloc d then d_alloc d - 1 else 0.

(* emplace_front: deque.hpp:820-832 (push_front: 792-796, 806-810) *)
Definition emplace_front (d : deq) (arg : option T) : outcome deq :=
  let new_size := d_size d + 1 in
  dbind (reserve d (Z.of_nat new_size)) (fun d =>
  if negb (0 <? d_alloc d) then UB
  else
    let i := circular_dec d (d_offset d) in
    match arg with
    | None => Throw d
    | Some x => dopt (create (d_mem d) i x) (fun m => Done (Deq m i new_size (d_alloc d)))
    end).

(* emplace_back: deque.hpp:835-846 (push_back: 799-803, 813-817) *)
Definition emplace_back (d : deq) (arg : option T) : outcome deq :=
  let new_size := d_size d + 1 in
  dbind (reserve d (Z.of_nat new_size)) (fun d =>
  if negb (0 <? d_alloc d) then UB
  else
    let i := wrap d (d_size d) in
    match arg with
    | None => Throw d
    | Some x => dopt (create (d_mem d) i x) (fun m => Done (Deq m (d_offset d) new_size (d_alloc d)))
    end).

(* pop_front: deque.hpp:849-858 *)
Definition pop_front (d : deq) : outcome deq :=
  if negb (0 <? d_size d) then UB
  else dopt (uninit_destroy (d_mem d) (d_offset d) 1) (fun m =>
       Done (Deq m (circular_inc d (d_offset d)) (d_size d - 1) (d_alloc d))).

(* pop_back: deque.hpp:861-870 *)
Definition pop_back (d : deq) : outcome deq :=
  if negb (0 <? d_size d) then UB
  else
    let new_size := d_size d - 1 in
    dopt (uninit_destroy (d_mem d) (wrap d new_size) 1) (fun m =>
    Done (Deq m (d_offset d) new_size (d_alloc d))).

(* The common part of do_append_1 and do_append_2: the elements are made in one or two
   pieces; if the second piece throws, the first is destroyed. *)
Definition append_pieces (d : deq) (size : nat) (piece : mem -> nat -> nat -> nat -> outcome mem) : outcome deq :=
  let offset := wrap d (d_size d) in
  let top := d_alloc d - offset in
  let finish r :=
    match r with
    | Done m => Done (Deq m (d_offset d) (d_size d + size) (d_alloc d))
    | Throw m => Throw (Deq m (d_offset d) (d_size d) (d_alloc d))
    | UB => UB
    end in
  if size <=? top then finish (piece (d_mem d) 0 size offset)
  else
    finish
      match piece (d_mem d) 0 top offset with
      | Done m =>
        match piece m top (size - top) 0 with
        | Throw m => match uninit_destroy m offset top with Some m => Throw m | None => UB end
        | r => r
        end
      | r => r
      end.

(* do_append_1: deque.hpp:1059-1080 and 1083-1104 (append(size, value): 880-884);
   make i is the outcome of the construction of the ith new element. *)
Definition append_fill (d : deq) (size : nat) (make : nat -> option T) : outcome deq :=
  dbind (reserve_extra d size) (fun d =>
  append_pieces d size (fun m from n p => uninit_safe_fill m n (fun i => make (from + i)) p)).

(* do_append_2 for random access iterators: deque.hpp:1123-1145 *)
Definition append_copy (d : deq) (src : list (option T)) : outcome deq :=
  dbind (reserve_extra d (length src)) (fun d =>
  append_pieces d (length src) (fun m from n p => uninit_safe_copy m (firstn n (skipn from src)) p)).

(* do_append_2 for input iterators: deque.hpp:1115-1120 *)
Fixpoint append_input (d : deq) (src : list (option T)) : outcome deq :=
  match src with
  | [] => Done d
  | x :: src => dbind (emplace_back d x) (fun d => append_input d src)
  end.

(* destroy: deque.hpp:1011-1024 *)
Definition destroy (d : deq) (offset : nat) : option mem :=
  if negb (offset <=? d_size d) then None
  else
    let size := d_size d - offset in
    let offset_2 := wrap d offset in
    let top := d_alloc d - offset_2 in
    if top <? size then
      let? m := uninit_destroy (d_mem d) 0 (size - top) in
      uninit_destroy m offset_2 top
    else uninit_destroy (d_mem d) offset_2 size.

(* clear: deque.hpp:918-924 *)
Definition clear (d : deq) : outcome deq :=
  dopt (destroy d 0) (fun m => Done (Deq m 0 0 (d_alloc d))).

(* resize: deque.hpp:927-937 and 940-950 *)
Definition resize (d : deq) (size : nat) (make : nat -> option T) : outcome deq :=
  if size <=? d_size d then
    dopt (destroy d size) (fun m => Done (Deq m (d_offset d) size (d_alloc d)))
  else append_fill d (size - d_size d) make.

(* operator[]: deque.hpp:588-595 and at: 572-578 *)
Definition index (d : deq) (i : nat) : option T :=
  if i <? d_size d then fetch (d_mem d) (wrap d i) else None.
Definition at_ (d : deq) (i : nat) : outcome (option T) :=
  if i <? d_size d then
    match index d i with Some x => Done (Some x) | None => UB end
  else Throw None.

(* Iterators are the member m_index: Iter, deque.hpp:278-452.
   begin, end: 633-637, 654-659 *)
Definition begin_ (d : deq) : nat := d_offset d.
Definition end_ (d : deq) : nat := wrap d (d_size d).
(* operator*: 305-309 *)
Definition deref (d : deq) (it : nat) : option T := fetch (d_mem d) it.
(* operator++, operator--: 323-333 *)
Definition it_inc (d : deq) (it : nat) : nat := circular_inc d it.
Definition it_dec (d : deq) (it : nat) : nat := circular_dec d it.
(* operator+=, operator-=: 349-372; the offset is a ptrdiff_t, the sum is taken modulo 2^W *)
Definition it_add (d : deq) (it : nat) (value : Z) : nat :=
  wrap d (Z.to_nat ((Z.of_nat (unwrap d it) + value mod 2 ^ W) mod 2 ^ W)).
Definition it_sub (d : deq) (it : nat) (value : Z) : nat :=
  wrap d (Z.to_nat ((Z.of_nat (unwrap d it) - value mod 2 ^ W) mod 2 ^ W)).
(* operator- (difference): 395-401; cast_from_twos_compl_a of a size_t to ptrdiff_t is
   the value of the bit pattern as a signed integer (integer.hpp:1300-1414 is not
   modelled) *)
Definition it_diff (d : deq) (a b : nat) : Z :=
  let x := ((Z.of_nat (unwrap d a) - Z.of_nat (unwrap d b)) mod 2 ^ W)%Z in
  if (x <? 2 ^ (W - 1))%Z then x else (x - 2 ^ W)%Z.
(* operator<: 414-420 *)
Definition it_lt (d : deq) (a b : nat) : bool := unwrap d a <? unwrap d b.

(* for (T& x : deque) ...: the elements from begin() to end() *)
Fixpoint iterate (fuel : nat) (d : deq) (it : nat) : option (list T) :=
  match fuel with
  | O => None
  | S fuel =>
    if it =? end_ d then Some []
    else
      let? x := deref d it in
      let? l := iterate fuel d (it_inc d it) in
      Some (x :: l)
  end.

(* erase_near_front: deque.hpp:1164-1206 *)
Definition erase_near_front (d : deq) (begin end_ : nat) : option deq :=
  let size := end_ - begin in
  if negb (0 <? size) then None
  else
    let begin_2 := begin in
    let top := d_alloc d - d_offset d in
    let? r :=
      if top <? d_size d then
        if end_ <=? top then
          let? m := uninit_destroy (d_mem d) (d_offset d + begin) size in
          Some (m, begin_2)
        else
          let? r :=
            if top <=? begin then
              let? m := uninit_destroy (d_mem d) (begin - top) size in
              let? m := uninit_move_upwards m 0 (begin - top) size in
              let begin_2 := top in
              Some (m, size)
            else
              let after := end_ - top in
              let before := size - after in
              let? m := uninit_destroy (d_mem d) (d_offset d + begin) before in
              let? m := uninit_destroy m 0 after in
              Some (m, after) in
          let m := fst r in
          let after := snd r in
          let n := Nat.min after begin in
          let begin_2 := begin - n in
          let? m := move_down_loop m (d_offset d + begin_2) (after - n) n in
          Some (m, begin_2)
      else
        let? m := uninit_destroy (d_mem d) (d_offset d + begin) size in
        Some (m, begin_2) in
    let? m := uninit_move_upwards (fst r) (d_offset d) (snd r) size in
    Some (Deq m (wrap d size) (d_size d - size) (d_alloc d)).

(* erase_near_back: deque.hpp:1209-1254 *)
Definition erase_near_back (d : deq) (begin end_ : nat) : option deq :=
  let size := end_ - begin in
  if negb (0 <? size) then None
  else
    let end_2 := end_ in
    let top := d_alloc d - d_offset d in
    let? r :=
      if top <? d_size d then
        let? r :=
          if top <=? begin then
            let? m := uninit_destroy (d_mem d) (begin - top) size in
            Some (m, end_2)
          else
            let? r :=
              if end_ <=? top then
                let? m := uninit_destroy (d_mem d) (d_offset d + begin) size in
                let? m := uninit_move_downwards m (d_offset d + end_) (top - end_) size in
                let end_2 := top in
                Some (m, 0, size, end_2)
              else
                let after := end_ - top in
                let before := size - after in
                let? m := uninit_destroy (d_mem d) (d_offset d + begin) before in
                let? m := uninit_destroy m 0 after in
                Some (m, after, before, end_2) in
            let '(m, after, before, end_2) := r in
            let remain := d_size d - end_ in
            let n := Nat.min before remain in
            let? m := move_down_loop m after (d_offset d + (top - before)) n in
            Some (m, end_2 + n) in
        Some (fst r, snd r, snd r - top)
      else
        let? m := uninit_destroy (d_mem d) (d_offset d + begin) size in
        Some (m, end_2, d_offset d + begin + size) in
    let '(m, end_2, end_3) := r in
    if negb (end_2 <=? d_size d) then None
    else
      let? m := uninit_move_downwards m end_3 (d_size d - end_2) size in
      Some (Deq m (d_offset d) (d_size d - size) (d_alloc d)).

(* do_erase: deque.hpp:1148-1161 *)
Definition do_erase (d : deq) (begin end_ : nat) : option deq :=
  if negb (begin =? end_) then
    let before := begin in
    let after := d_size d - end_ in
    if after <=? before then erase_near_back d begin end_ else erase_near_front d begin end_
  else Some d.

(* erase(begin, end): deque.hpp:905-915; the arguments and the result are iterators *)
Definition erase (d : deq) (first last : nat) : option (deq * nat) :=
  let begin_2 := unwrap d first in
  let end_2 := unwrap d last in
  if negb (begin_2 <=? end_2) then None
  else if negb (end_2 <=? d_size d) then None
  else
    let? d := if negb (begin_2 =? end_2) then do_erase d begin_2 end_2 else Some d in
    Some (d, wrap d begin_2).

(* Deque(const Deque&): deque.hpp:455-460; the source range is read through iterators *)
Definition copy_construct (other : deq) : outcome deq :=
  dopt (iterate (S (d_size other)) other (begin_ other)) (fun l => append_copy dempty (map Some l)).

(* operator=(const Deque&): deque.hpp:515-521.  other = None is self-assignment. *)
Definition copy_assign (d : deq) (other : option deq) : outcome deq :=
  dbind (clear d) (fun d =>
  let o := match other with Some o => o | None => d end in
  dopt (iterate (S (d_size o)) o (begin_ o)) (fun l => append_copy d (map Some l))).

(* Deque(Deque&&): deque.hpp:463-473; the result is the new deque and what is left of
   other.  operator=(Deque&&) (524-536) destroys the old contents first. *)
Definition move_construct (other : deq) : deq * deq :=
  (Deq (d_mem other) (d_offset other) (d_size other) (d_alloc other), Deq [] 0 0 0).
Definition move_assign (d other : deq) : option (deq * deq) :=
  let? m := destroy d 0 in
  if all_free m then Some (move_construct other) else None.

End Deque.
