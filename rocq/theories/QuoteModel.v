(* Model of quoted(), quoted_s(), smart_quoted() and smart_quoted_s():
   /repo/src/archon/core/quote.hpp.

   The result is the text that is written to the stream (without padding to the field
   width).  Pointers into the string are the part of the string that begins there.  Sizes
   are exact integers; max_size is a value of std::size_t, which has W bits.  None is an
   access beyond the end of the string, or a failed assertion. *)
From Coq Require Import ZArith Bool List.
From Verif Require Import CInt ArrLib IntModel IntTextModel.
Import ListNotations.
Open Scope Z_scope.

Section Quote.
  Variable W : Z.
  Variable C : ity.                     (* the character type *)
  Variable U : ity.                     (* fast_unsigned_int_type<int_width<C>()> *)
  Variables print xdigit space : Z -> bool.   (* ctype.is(...) *)
  Variable quote : Z.

  (* The characters of the ASCII character set have the same values in C and in char, and
     narrow() maps no other character to a control character: quote.hpp:194-203, 245 *)
  Definition bslash : Z := 92.
  Definition dots : list Z := [46; 46; 46].
  Definition narrow (ch : Z) : Z := if (0 <=? ch) && (ch <? 128) then ch else 0.

  (* find: quote.hpp:216-233 *)
  Fixpoint find (follows_hex : bool) (l : list Z) : nat :=
    match l with
    | [] => O
    | ch :: l =>
      let requires_escaping := (ch =? quote) || (ch =? bslash) || negb (print ch) || (follows_hex && xdigit ch) in
      if negb (space ch) && negb requires_escaping then S (find false l) else O
    end.

  (* the value of a character: quote.hpp:283-286 *)
  Definition char_value (ch : Z) : Z :=
    let val := wrap U ch in
    if isigned C && (iwidth U >? iwidth C) then Z.land val (2 ^ iwidth C - 1) else val.

  (* numeric: quote.hpp:278-300 *)
  Definition render_numeric (ch : Z) (next : list Z) : option (list Z * bool) :=
    let val := char_value ch in
    if val <? 512 then
      let min_num_digits :=
        match next with
        | [] => 1
        | ch_1 :: _ => if (ch_1 <? 48) || (ch_1 >? 55) then 1 else 3
        end in
      match format_a (fun c => c) U false val 8 min_num_digits with
      | Some (Some str) => Some (bslash :: str, false)
      | _ => None
      end
    else
      match format_a (fun c => c) U false val 16 1 with
      | Some (Some str) => Some (bslash :: 120 :: str, true)
      | _ => None
      end.

  (* render: quote.hpp:235-301.  The text that is added to the buffer, and follows_hex. *)
  Definition render (i : list Z) (follows_hex : bool) : option (list Z * bool) :=
    match i with
    | [] => None
    | ch :: next =>
      if print ch && (negb follows_hex || negb (xdigit ch)) then
        if negb (ch =? quote) && negb (ch =? bslash) then Some ([ch], false)
        else Some ([bslash; ch], false)
      else
        let ch_2 := narrow ch in
        if ch_2 =? 7 then Some ([bslash; 97], false)
        else if ch_2 =? 8 then Some ([bslash; 98], false)
        else if ch_2 =? 9 then Some ([bslash; 116], false)
        else if ch_2 =? 10 then Some ([bslash; 110], false)
        else if ch_2 =? 11 then Some ([bslash; 118], false)
        else if ch_2 =? 12 then Some ([bslash; 102], false)
        else if ch_2 =? 13 then Some ([bslash; 114], false)
        else render_numeric ch next
    end.

  Variable max_size : Z.
  (* quote.hpp:303-308 *)
  Definition no_max_size : bool := max_size =? 2 ^ W - 1.
  Definition max_size_1 : Z := if max_size >=? 5 then max_size else 5.
  Definition max_size_2 : Z := max_size_1 - 2.
  Definition max_size_3 : Z := max_size_2 - 3.

  Definition size (l : list Z) : Z := Z.of_nat (length l).

  (* render_more, ellipsis, close_2: quote.hpp:448-458, 465-467.  The rendering of the first
     character of i_1 is in the buffer. *)
  Fixpoint render_more (i_1 buffer : list Z) (n_2 : Z) (follows_hex : bool) : option (list Z) :=
    if size buffer >? n_2 then Some (dots ++ [quote])
    else
      match i_1 with
      | [] => None
      | _ :: i_1 =>
        match i_1 with
        | [] => Some (buffer ++ [quote])
        | _ =>
          let? (str, follows_hex) := render i_1 follows_hex in
          render_more i_1 (buffer ++ str) n_2 follows_hex
        end
      end.

  (* again_2: quote.hpp:407-469 *)
  Fixpoint again_2 (fuel : nat) (i_1 : list Z) (i_2 : Z) (follows_hex : bool) : option (list Z) :=
    match fuel with
    | O => None
    | S fuel =>
      let n_1 := size i_1 in
      if negb (no_max_size || (i_2 <=? max_size_2)) then None else
      let n_2 := max_size_2 - i_2 in
      (* escape, write_buffer: 423-439 *)
      let escape (j_2 : nat) (n_3 : Z) :=
        let str := firstn j_2 i_1 in
        let i_1 := skipn j_2 i_1 in
        let follows_hex := if (0 <? j_2)%nat then false else follows_hex in
        let? (buffer, follows_hex) := render i_1 follows_hex in
        if no_max_size || (size buffer <=? n_3 - Z.of_nat j_2) then
          let? rest := again_2 fuel (tl i_1) (i_2 + Z.of_nat j_2 + size buffer) follows_hex in
          Some (str ++ buffer ++ rest)
        else
          let? rest := render_more i_1 buffer (n_2 - Z.of_nat j_2) follows_hex in
          Some (str ++ rest) in
      if no_max_size || (n_1 <=? n_2) then
        let j_2 := find follows_hex i_1 in
        if Nat.eqb j_2 (length i_1) then Some (i_1 ++ [quote])
        else if negb (i_2 <=? max_size_3) then None
        else
          let n_3 := max_size_3 - i_2 in
          if no_max_size || (Z.of_nat j_2 <? n_3) then escape j_2 n_3
          else
            let j_2 := Z.to_nat n_3 in
            let str := firstn j_2 i_1 in
            let i_1 := skipn j_2 i_1 in
            let follows_hex := if (0 <? j_2)%nat then false else follows_hex in
            let? (buffer, follows_hex) := render i_1 follows_hex in
            let? rest := render_more i_1 buffer (n_2 - Z.of_nat j_2) follows_hex in
            Some (str ++ rest)
      else if negb (i_2 <=? max_size_3) then None
      else
        let n_3 := max_size_3 - i_2 in
        let j_2 := find follows_hex (firstn (Z.to_nat n_3) i_1) in
        if Nat.eqb j_2 (Z.to_nat n_3) then Some (firstn j_2 i_1 ++ dots ++ [quote])
        else escape j_2 n_3
    end.

  (* do_quote() for quoted() and quoted_s(): quote.hpp:405-470 *)
  Definition quoted (string : list Z) : option (list Z) :=
    let? str := again_2 (S (length string)) string 0 false in Some (quote :: str).

  (* again_1: quote.hpp:351-402.  None in place of the buffer means the unquoted form. *)
  Fixpoint again_1 (j_1 buffer : list Z) (n_1 : Z) (follows_hex : bool) : option (option (list Z)) :=
    let n_2 := n_1 + size buffer in
    if n_2 >? max_size_2 then Some None
    else
      match j_1 with
      | [] => None
      | _ :: j_1 =>
        match j_1 with
        | [] =>
          let quoted_form_is_oversized := (n_2 >? max_size) || (2 >? max_size - n_2) in
          let quoted_form_is_larger := (size buffer >? 3) || (2 >? 3 - size buffer) in
          if negb quoted_form_is_oversized || negb quoted_form_is_larger then Some (Some buffer) else Some None
        | _ =>
          let? (str, follows_hex) := render j_1 follows_hex in
          again_1 j_1 (buffer ++ str) n_1 follows_hex
        end
      end.

  (* do_quote() for smart_quoted() and smart_quoted_s(): quote.hpp:312-403 *)
  Definition smart_quoted (string : list Z) : option (list Z) :=
    match string with
    | [] => quoted string
    | _ =>
      let max_size_4 := if max_size >=? 3 then max_size else 3 in
      let prefix (n : nat) :=  (* the characters in front of i_1 are the first n: 335-403 *)
        let str := firstn n string in
        let i_1 := skipn n string in
        let n_1 := Z.of_nat n in
        let? (buffer, follows_hex) := render i_1 false in
        if no_max_size || (n_1 + size buffer <=? max_size_3) then
          let? rest := again_2 (length i_1) (tl i_1) (n_1 + size buffer) follows_hex in
          Some (quote :: str ++ buffer ++ rest)
        else
          let? r := again_1 i_1 buffer n_1 follows_hex in
          match r with
          | None => Some (str ++ dots)
          | Some buffer => Some (quote :: str ++ buffer ++ [quote])
          end in
      if no_max_size || (size string <=? max_size_4) then
        let j_2 := find false string in
        if Nat.eqb j_2 (length string) then Some string
        else if no_max_size || (Z.of_nat j_2 <=? max_size_4 - 3) then prefix j_2
        else prefix (Z.to_nat (max_size_4 - 3))
      else prefix (find false (firstn (Z.to_nat (max_size_4 - 3)) string))
    end.
End Quote.
