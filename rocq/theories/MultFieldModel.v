(* Model of packing and unpacking of fields by multiplication (display/noinst/mult_pixel_format.hpp) *)
From Coq Require Import ZArith Bool List.
From Verif Require Import ArrLib.
Import ListNotations.
Local Open Scope Z_scope.

(* MultFieldSpec: display/noinst/mult_pixel_format.hpp:192-225.  The compound type is unsigned, not narrower than int, and
   has the given number of bits.  The order is the result of std::sort, see fs_make. *)
Record fspec := FSpec { fs_bits : Z; m_offset : Z; m_mult : list Z; m_max : list Z; m_order : list nat }.

(* MultFieldSpec::MultFieldSpec: mult_pixel_format.hpp:493-506.  Simplification: std::sort is a parameter, as it is given the
   comparison function; the order of fields with the same multiplier is unspecified. *)
Definition fs_make (sort : (nat -> nat -> bool) -> list nat -> list nat) (bits offset : Z) (fields : list (Z * Z)) : fspec :=
  let mult := map fst fields in
  let max := map snd fields in
  let order := seq 0 (length fields) in
  FSpec bits offset mult max (sort (fun a b => nth b mult 0 <? nth a mult 0) order).

Definition wrapu (s : fspec) (x : Z) : Z := x mod 2 ^ fs_bits s.

(* MultFieldSpec::pack: mult_pixel_format.hpp:516-523; None if a component is missing *)
Fixpoint pack_loop (s : fspec) (components mult : list Z) (val : Z) : option Z :=
  match mult, components with
  | [], _ => Some val
  | m :: mult, c :: components => pack_loop s components mult (wrapu s (val + wrapu s (c * m)))
  | _, [] => None
  end.
Definition pack (s : fspec) (components : list Z) : option Z := pack_loop s components (m_mult s) (m_offset s).

(* MultFieldSpec::unpack: mult_pixel_format.hpp:526-545; the first loop (531-537), for the rest of the order.  None for
   undefined behaviour *)
Fixpoint unpack_loop (s : fspec) (order : list nat) (val_1 : Z) (components : list Z) (good : bool) : option (list Z * bool) :=
  match order with
  | [] => Some (components, good)
  | j :: order =>
      let? m := nth_error (m_mult s) j in
      if m =? 0 then None else
      let val_2 := val_1 / m in
      let val_1 := val_1 mod m in
      let? components := set_nth components j val_2 in
      let? mx := nth_error (m_max s) j in
      unpack_loop s order val_1 components (good && (val_2 <=? mx))
  end.
Definition unpack (s : fspec) (compound : Z) (components : list Z) : option (list Z) :=
  let val_1 := wrapu s (compound - m_offset s) in
  let good := m_offset s <=? compound in
  let? r := unpack_loop s (m_order s) val_1 components good in
  let (components, good) := r : list Z * bool in
  if good then Some components
  else Some (map (fun _ => 0) components).

(* PermMultFieldSpec: display/noinst/x11/support.cpp:495-523; the map from color indexes is an association list, as searching
   in a FlatMap is modelled elsewhere *)
Fixpoint rev_find (rev_perm : list (Z * Z)) (index : Z) : option Z :=
  match rev_perm with
  | [] => None
  | (k, v) :: rev_perm => if k =? index then Some v else rev_find rev_perm index
  end.

(* PermMultFieldSpec::pack: support.cpp:527-533; None if an assertion fails *)
Definition perm_pack (s : fspec) (perm components : list Z) : option Z :=
  let? compound := pack s components in
  if compound <? 0 then None else
  if Z.of_nat (length perm) <=? compound then None else
  nth_error perm (Z.to_nat compound).

(* PermMultFieldSpec::unpack: support.cpp:537-551; std::uint_least16_t has 16 bits *)
Definition perm_unpack (s : fspec) (rev_perm : list (Z * Z)) (compound : Z) (components : list Z) : option (list Z) :=
  match (if (0 <=? compound) && (compound <? 2 ^ 16) then rev_find rev_perm compound else None) with
  | Some compound_2 => unpack s compound_2 components
  | None => Some (map (fun _ => 0) components)
  end.
