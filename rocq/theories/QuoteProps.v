(* C42, C51: the quoted forms of strings. *)
From Coq Require Import ZArith Bool List Lia ZifyBool.
From Verif Require Import CInt ArrLib QuoteModel QuoteSpec QuoteProofs QuoteProofs2 QuoteProofs3.
Import ListNotations.
Open Scope Z_scope.

(* a character type, and the unsigned type that is used for the values of its characters *)
Definition char_types (C U : ity) : Prop :=
  ity_ok C /\ 8 <= iwidth C /\ ity_ok U /\ isigned U = false /\ iwidth C <= iwidth U.

(* the classification of characters: newline is not printable, and the hexadecimal digits
   are hexadecimal digits.  Otherwise it is arbitrary. *)
Definition classification (print xdigit : Z -> bool) : Prop :=
  print 10 = false /\ forall c, hex_digit c <> None -> xdigit c = true.

Definition quotation_mark (q : Z) : Prop := q = 34 \/ q = 39.

Lemma escaped_pieces C U print xdigit quote s :
  char_types C U -> classification print xdigit -> quotation_mark quote -> Forall (in_range C) s ->
  escaped quote (iwidth C) print xdigit s (pieces C U print xdigit quote false s).
Proof.
  intros (HC & HC8 & HU & HUu & HW) (Hnl & Hx) Hq Hs.
  pose proof (pieces_length C U print xdigit quote HC8 HU HUu HW Hq Hnl false s Hs) as Hl.
  split; [exact Hl|].
  split; [now apply pieces_nonempty|]. split; [|split].
  - intros i c p E Ep Hp Hcq Hb Hh.
    apply (pieces_plain C U print xdigit quote HC8 HU HUu HW Hq Hnl s Hs false i c p); try assumption.
    intros Hxc. destruct i as [|j]; [reflexivity|]. intros t. exact (Hh Hxc j t eq_refl).
  - pose proof (pieces_read C U print xdigit quote HC8 HU HUu HW Hq Hnl Hx s Hs false (length s) [] ltac:(discriminate)) as E.
    rewrite app_nil_r in E. rewrite <- Hl in E at 1. rewrite firstn_all in E. rewrite E. cbn. now rewrite firstn_all, app_nil_r.
  - intros k Hk.
    rewrite (pieces_read C U print xdigit quote HC8 HU HUu HW Hq Hnl Hx s Hs false k ellipsis) by (intros r t [= <- _]; reflexivity).
    assert (256 <= 2 ^ iwidth C) by (change 256 with (2 ^ 8); apply Z.pow_le_mono_r; lia).
    assert (E : read quote (iwidth C) Plain ellipsis = Some [46 mod 2 ^ iwidth C; 46 mod 2 ^ iwidth C; 46 mod 2 ^ iwidth C])
      by (destruct Hq; subst quote; reflexivity).
    rewrite E, Z.mod_small by lia. reflexivity.
Qed.

(* C42: The quoted form without a limit is a literal that denotes exactly the string.  The
   quoted form has to fit in memory, which this condition on the length ensures. *)
Theorem quoted_literal : forall W C U print xdigit space quote s,
  char_types C U -> classification print xdigit -> quotation_mark quote -> Forall (in_range C) s ->
  (iwidth C + 2) * text_size s + 6 <= 2 ^ W ->
  exists text,
    quoted W C U print xdigit space quote (2 ^ W - 1) s = Some text /\
    literal quote (iwidth C) text (map (code (iwidth C)) s).
Proof.
  intros W C U print xdigit space quote s Hct Hcl Hq Hs Hfit.
  pose proof (escaped_pieces C U print xdigit quote s Hct Hcl Hq Hs) as (_ & _ & _ & Hread & _).
  destruct Hct as (HC & HC8 & HU & HUu & HW). destruct Hcl as (Hnl & Hx).
  pose proof (pieces_size C U print xdigit quote HC8 HU HUu HW Hq Hnl s Hs false) as Hsz.
  destruct (max_sizes (2 ^ W - 1)) as (M2 & M3 & M5 & M1). unfold text_size in Hfit.
  assert (Hfit2 : size (concat (pieces C U print xdigit quote false s)) <= max_size_3 (2 ^ W - 1)) by (unfold size; lia).
  rewrite quoted_ok; try assumption; [|intros _; exact Hfit2].
  eexists. split; [reflexivity|]. exists (concat (pieces C U print xdigit quote false s)).
  split; [|exact Hread]. unfold form.
  replace (_ <=? _) with true by lia. reflexivity.
Qed.

(* an example classification *)
Definition ascii_print (n : Z) : bool := (32 <=? n) && (n <=? 126).
Definition ascii_xdigit (n : Z) : bool :=
  ((48 <=? n) && (n <=? 57)) || ((65 <=? n) && (n <=? 70)) || ((97 <=? n) && (n <=? 102)).
Definition ascii_space (n : Z) : bool := (n =? 32) || ((9 <=? n) && (n <=? 13)).
Definition t_char := ITy 8 true.
Definition t_uint8 := ITy 8 false.
Definition t_wchar := ITy 32 true.
Definition t_uint64 := ITy 64 false.

Lemma ascii_ok : classification ascii_print ascii_xdigit.
Proof.
  split; [reflexivity|]. intros c. unfold hex_digit, ascii_xdigit.
  destruct ((48 <=? c) && (c <=? 57)); [reflexivity|].
  destruct ((65 <=? c) && (c <=? 70)); [reflexivity|].
  destruct ((97 <=? c) && (c <=? 102)); [reflexivity|congruence].
Qed.

Lemma char_ok : char_types t_char t_uint8.
Proof. unfold char_types, ity_ok. cbn. repeat split; lia. Qed.

Lemma wchar_ok : char_types t_wchar t_uint64.
Proof. unfold char_types, ity_ok. cbn. repeat split; lia. Qed.

(* byte 255 and digit 1, code 1 and digit 1, code 1 and letter G, newline, quotation mark:
   written as \3771 \0011 \1G \n and an escaped quotation mark *)
Definition sample : list Z := [-1; 49; 1; 49; 1; 71; 10; 34].

Example quoted_literal_ex :
  Forall (in_range t_char) sample /\ (iwidth t_char + 2) * text_size sample + 6 <= 2 ^ 64 /\
  quoted 64 t_char t_uint8 ascii_print ascii_xdigit ascii_space 34 (2 ^ 64 - 1) sample =
    Some [34; 92; 51; 55; 55; 49; 92; 48; 48; 49; 49; 92; 49; 71; 92; 110; 92; 34; 34] /\
  map (code 8) sample = [255; 49; 1; 49; 1; 71; 10; 34].
Proof.
  split; [repeat constructor; cbn; lia|]. split; [cbn; lia|]. split; vm_compute; reflexivity.
Qed.

(* a hexadecimal escape sequence, and a digit after it *)
Definition wide_sample : list Z := [8364; 49; -2].

Example quoted_literal_wide_ex :
  Forall (in_range t_wchar) wide_sample /\ (iwidth t_wchar + 2) * text_size wide_sample + 6 <= 2 ^ 64 /\
  quoted 64 t_wchar t_uint64 ascii_print ascii_xdigit ascii_space 34 (2 ^ 64 - 1) wide_sample =
    Some [34; 92; 120; 50; 48; 65; 67; 92; 54; 49; 92; 120; 70; 70; 70; 70; 70; 70; 70; 69; 34] /\
  map (code 32) wide_sample = [8364; 49; 2 ^ 32 - 2].
Proof.
  split; [repeat constructor; cbn; lia|]. split; [cbn; lia|]. split; vm_compute; reflexivity.
Qed.

(* C42: With a limit on the size, the quoted form is the quoted form of the whole string if
   it does not exceed the limit, and otherwise the longest prefix that fits together with an
   ellipsis.  Its size never exceeds the limit, or 5, and what is between the quotation
   marks denotes the characters of the prefix, and the ellipsis.  Each character is written
   as it is in the quoted form of the whole string. *)
Theorem quoted_limit_exact : forall W C U print xdigit space quote s,
  char_types C U -> classification print xdigit -> quotation_mark quote -> Forall (in_range C) s ->
  exists pieces,
    escaped quote (iwidth C) print xdigit s pieces /\
    forall max_size, 0 <= max_size < 2 ^ W - 1 ->
      exists text count,
        quoted W C U print xdigit space quote max_size s = Some text /\
        quoted_form quote pieces (Z.max 5 max_size) text count /\
        text_size text <= Z.max 5 max_size /\
        literal quote (iwidth C) text
          (map (code (iwidth C)) (firstn count s) ++ if (count <? length s)%nat then ellipsis else []).
Proof.
  intros W C U print xdigit space quote s Hct Hcl Hq Hs.
  pose proof (escaped_pieces C U print xdigit quote s Hct Hcl Hq Hs) as Hesc.
  exists (pieces C U print xdigit quote false s). split; [exact Hesc|].
  destruct Hesc as (Hl & Hne & _ & Hread & Hpre).
  destruct Hct as (HC & HC8 & HU & HUu & HW). destruct Hcl as (Hnl & Hx).
  intros max_size Hm.
  destruct (max_sizes max_size) as (M2 & M3 & M5 & M1).
  assert (En : no_max_size W max_size = false) by (unfold no_max_size; lia).
  set (P := pieces C U print xdigit quote false s) in *.
  destruct (form_spec quote P (Z.max 5 max_size) ltac:(lia)) as [count Hform].
  exists (quote :: form quote (Z.max 5 max_size - 2) P), count.
  split. { rewrite quoted_ok; try assumption; [now rewrite M1|congruence]. }
  split; [exact Hform|].
  destruct Hform as [(A & B & D)|(A & B & D & F & G)].
  - split.
    + rewrite D. unfold text_size in *. cbn [length]. rewrite app_length. cbn [length]. lia.
    + rewrite Hl in B. subst count. rewrite firstn_all. replace (length s <? length s)%nat with false by lia.
      rewrite app_nil_r. exists (concat P). split; [now rewrite D|exact Hread].
  - split.
    + rewrite G. unfold text_size in *. cbn [length]. rewrite !app_length. cbn [length ellipsis]. lia.
    + rewrite Hl in B. assert (Hc : (count < length s)%nat).
      { destruct (Nat.eq_dec count (length s)) as [->|]; [|lia]. exfalso.
        rewrite <- Hl, firstn_all in D. lia. }
      replace (count <? length s)%nat with true by lia.
      exists (concat (firstn count P) ++ ellipsis). split; [rewrite G; now rewrite <- app_assoc|now apply Hpre].
Qed.

Example quoted_limit_exact_ex :
  (* foo bar: "foo bar" if 9 characters are allowed, "foo..." if 8 are *)
  let foo_bar := [102; 111; 111; 32; 98; 97; 114] in
  quoted 64 t_char t_uint8 ascii_print ascii_xdigit ascii_space 34 9 foo_bar = Some (34 :: foo_bar ++ [34]) /\
  quoted 64 t_char t_uint8 ascii_print ascii_xdigit ascii_space 34 8 foo_bar =
    Some [34; 102; 111; 111; 46; 46; 46; 34] /\
  quoted 64 t_char t_uint8 ascii_print ascii_xdigit ascii_space 34 12 sample =
    Some [34; 92; 51; 55; 55; 49; 46; 46; 46; 34].
Proof. split; [|split]; vm_compute; reflexivity. Qed.

(* The documentation (quote.hpp:72-80) speaks of the result of escaping the characters of
   the prefix.  Taken literally, that is not what happens: a digit that is cut off still
   makes the escape sequence in front of it longer.  Code 1 followed by 1aaaa has the prefix
   that is code 1 alone, with quoted form "\1", so there is room for "\1..." in 7
   characters, but the outcome is "..." *)
Theorem quoted_prefix_alone_refuted :
  exists s k max_size prefix text,
    Forall (in_range t_char) s /\ (k < length s)%nat /\
    quoted 64 t_char t_uint8 ascii_print ascii_xdigit ascii_space 34 (2 ^ 64 - 1) (firstn k s) = Some prefix /\
    text_size prefix + 3 <= Z.max 5 max_size /\ 0 <= max_size < 2 ^ 64 - 1 /\
    quoted 64 t_char t_uint8 ascii_print ascii_xdigit ascii_space 34 max_size s = Some text /\
    text_size text < text_size prefix + 3.
Proof.
  exists [1; 49; 97; 97; 97; 97], 1%nat, 7, [34; 92; 49; 34], [34; 46; 46; 46; 34].
  split; [repeat constructor; cbn; lia|]. split; [cbn; lia|]. split; [vm_compute; reflexivity|].
  split; [cbn; lia|]. split; [lia|]. split; [vm_compute; reflexivity|]. cbn. lia.
Qed.

(* C51: When a maximum size is specified, the form that is chosen is as documented. *)
Theorem smart_quoted_choice : forall W C U print xdigit space quote s,
  char_types C U -> classification print xdigit -> quotation_mark quote -> Forall (in_range C) s ->
  exists pieces,
    escaped quote (iwidth C) print xdigit s pieces /\
    forall max_size u u_count q q_count, 0 <= max_size < 2 ^ W - 1 ->
      unquoted_form (plain_char print space quote) s (Z.max 3 max_size) u u_count ->
      quoted_form quote pieces (Z.max 5 max_size) q q_count ->
      (use_unquoted s max_size u u_count q q_count /\
       smart_quoted W C U print xdigit space quote max_size s = Some u) \/
      (~ use_unquoted s max_size u u_count q q_count /\
       smart_quoted W C U print xdigit space quote max_size s = Some q).
Proof.
  intros W C U print xdigit space quote s Hct Hcl Hq Hs.
  pose proof (escaped_pieces C U print xdigit quote s Hct Hcl Hq Hs) as Hesc.
  exists (pieces C U print xdigit quote false s). split; [exact Hesc|].
  destruct Hct as (HC & HC8 & HU & HUu & HW). destruct Hcl as (Hnl & Hx).
  intros max_size u uc qd qc Hm Hu Hqd.
  apply smart_choice; try assumption; [unfold no_max_size; lia|lia].
Qed.

(* both forms exist, whatever the limit, and are determined by it *)
Theorem quote_forms_exist : forall simple q pieces s max_size,
  (forall c, {simple c} + {~ simple c}) ->
  (exists u u_count, unquoted_form simple s (Z.max 3 max_size) u u_count) /\
  (exists t t_count, quoted_form q pieces (Z.max 5 max_size) t t_count).
Proof.
  intros simple q P s max_size dec. split.
  - set (adj := Z.max 3 max_size).
    assert (Hdec : {text_size s <= adj /\ Forall simple s} + {~ (text_size s <= adj /\ Forall simple s)}).
    { destruct (Z_le_dec (text_size s) adj); [|right; tauto].
      destruct (Forall_dec simple dec s); [left|right]; tauto. }
    destruct Hdec as [[A B]|N]; [exists s, (length s); left; repeat split; assumption|].
    assert (Hk : forall n, (n <= length s)%nat -> exists k, (k <= n)%nat /\ Z.of_nat k + 3 <= adj /\
      Forall simple (firstn k s) /\
      forall k', (k < k' <= n)%nat -> ~ (Z.of_nat k' + 3 <= adj /\ Forall simple (firstn k' s))).
    { induction n as [|n IH]; intros Hn.
      - exists 0%nat. split; [lia|]. split; [unfold adj; lia|]. split; [constructor|lia].
      - destruct (IH ltac:(lia)) as (k & K1 & K2 & K3 & K4).
        destruct (Z_le_dec (Z.of_nat (S n) + 3) adj) as [L|L].
        + destruct (Forall_dec simple dec (firstn (S n) s)) as [F|F].
          * exists (S n). split; [lia|]. split; [assumption|]. split; [assumption|lia].
          * exists k. split; [lia|]. split; [assumption|]. split; [assumption|].
            intros k' Hk'. destruct (Nat.eq_dec k' (S n)) as [->|]; [tauto|apply K4; lia].
        + exists k. split; [lia|]. split; [assumption|]. split; [assumption|].
          intros k' Hk'. destruct (Nat.eq_dec k' (S n)) as [->|]; [tauto|apply K4; lia]. }
    destruct (Hk (length s) (le_n _)) as (k & K1 & K2 & K3 & K4).
    exists (firstn k s ++ ellipsis), k. right. repeat split; assumption.
  - destruct (form_spec q P (Z.max 5 max_size) ltac:(lia)) as [c Hc]. eauto.
Qed.

(* C51: Without a maximum size, the unquoted form is used exactly for the nonempty strings
   without spaces and special characters, and otherwise the quoted form of the string. *)
Theorem smart_quoted_unlimited : forall W C U print xdigit space quote s,
  char_types C U -> classification print xdigit -> quotation_mark quote -> Forall (in_range C) s ->
  (iwidth C + 2) * text_size s + 6 <= 2 ^ W ->
  (s <> [] /\ Forall (plain_char print space quote) s /\
   smart_quoted W C U print xdigit space quote (2 ^ W - 1) s = Some s) \/
  (~ (s <> [] /\ Forall (plain_char print space quote) s) /\
   exists text,
     quoted W C U print xdigit space quote (2 ^ W - 1) s = Some text /\
     smart_quoted W C U print xdigit space quote (2 ^ W - 1) s = Some text /\
     literal quote (iwidth C) text (map (code (iwidth C)) s)).
Proof.
  intros W C U print xdigit space quote s Hct Hcl Hq Hs Hfit.
  destruct (quoted_literal W C U print xdigit space quote s Hct Hcl Hq Hs Hfit) as (text & Et & Hlit).
  destruct Hct as (HC & HC8 & HU & HUu & HW). destruct Hcl as (Hnl & Hx).
  pose proof (pieces_size C U print xdigit quote HC8 HU HUu HW Hq Hnl s Hs false) as Hsz.
  destruct (max_sizes (2 ^ W - 1)) as (M2 & M3 & M5 & M1). unfold text_size in Hfit.
  assert (Hfit2 : size (concat (pieces C U print xdigit quote false s)) <= max_size_3 (2 ^ W - 1)) by (unfold size; lia).
  assert (En : no_max_size W (2 ^ W - 1) = true) by (unfold no_max_size; lia).
  destruct (smart_unlimited W C U print xdigit space quote (2 ^ W - 1) HC8 HU HUu HW Hq Hnl s Hs En Hfit2)
    as [H|[Hn E]]; [left; exact H|].
  right. split; [exact Hn|]. exists text. split; [exact Et|]. split; [|exact Hlit].
  rewrite E, <- Et. rewrite quoted_ok by (try assumption; intros _; exact Hfit2).
  unfold form. replace (_ <=? _) with true by lia. reflexivity.
Qed.

(* the cases of the documentation: foo... for a limit of 6, and "foo bar" without a limit;
   and two cases in which a form is larger than the limit: the quoted form of a single space
   is as large as an ellipsis and has more characters of the string in it *)
Example smart_quoted_ex :
  let foo_bar := [102; 111; 111; 32; 98; 97; 114] in
  smart_quoted 64 t_char t_uint8 ascii_print ascii_xdigit ascii_space 34 6 foo_bar =
    Some [102; 111; 111; 46; 46; 46] /\
  smart_quoted 64 t_char t_uint8 ascii_print ascii_xdigit ascii_space 34 (2 ^ 64 - 1) foo_bar =
    Some (34 :: foo_bar ++ [34]) /\
  smart_quoted 64 t_char t_uint8 ascii_print ascii_xdigit ascii_space 34 (2 ^ 64 - 1) [120; 121] =
    Some [120; 121] /\
  smart_quoted 64 t_char t_uint8 ascii_print ascii_xdigit ascii_space 34 2 [32] = Some [34; 32; 34] /\
  smart_quoted 64 t_char t_uint8 ascii_print ascii_xdigit ascii_space 34 2 [32; 32] = Some [46; 46; 46].
Proof. repeat split; vm_compute; reflexivity. Qed.

Print Assumptions quoted_literal.
Print Assumptions quoted_limit_exact.
Print Assumptions quoted_prefix_alone_refuted.
Print Assumptions smart_quoted_choice.
Print Assumptions quote_forms_exist.
Print Assumptions smart_quoted_unlimited.
