(* Theorems for C115 to C119 (CSS colors). *)
From Coq Require Import ZArith Lia String.
From Coq Require Import List Bool.
From Verif Require Import CInt CssModel CssSpec CssProofs CssProofs2 CssProofs3 CssProofs4 ArrLib.
Import ListNotations.
Open Scope Z_scope.

(* C115: finding a named color by its name *)
Theorem find_by_name_exact : forall s, exists r, find_by_name s = Some r /\
  forall i, r = Some i <-> exists x, nth_error named_colors i = Some (s, x).
Proof.
  intros s. destruct (find_by_name_ok s) as (r & E & H). exists r. split; [exact E|]. intros i. rewrite H.
  unfold color_names. rewrite nth_error_map. destruct (nth_error named_colors i) as [[n x]|]; cbn.
  - split; [intros [= ->]; eauto|intros (y & [= -> _]); reflexivity].
  - split; [discriminate|intros (y & X); discriminate].
Qed.

(* C115: finding a named color by its value: the first of those with that value *)
Theorem find_by_value_exact : forall x, hex_ok x -> exists r, find_by_value x = Some r /\
  forall i, r = Some i <-> first_place (map snd named_colors) x i.
Proof. exact find_by_value_ok. Qed.

(* every named color is found by its name, and its value leads to a named color of the same
   value *)
Theorem named_colors_found : forall i s x, nth_error named_colors i = Some (s, x) ->
  find_by_name s = Some (Some i) /\
  exists j s', find_by_value x = Some (Some j) /\ (j <= i)%nat /\ nth_error named_colors j = Some (s', x).
Proof.
  intros i s x H. split.
  - destruct (find_by_name_exact s) as (r & E & X). rewrite E. f_equal. apply X. eauto.
  - assert (Hx : hex_ok x).
    { apply nth_error_In in H.
      assert (X : forallb (fun e => (0 <=? h_r (snd e)) && (h_r (snd e) <? 256) && (0 <=? h_g (snd e)) && (h_g (snd e) <? 256) &&
                   (0 <=? h_b (snd e)) && (h_b (snd e) <? 256) && (0 <=? h_a (snd e)) && (h_a (snd e) <? 256)) named_colors = true)
        by (vm_compute; reflexivity).
      rewrite forallb_forall in X. specialize (X _ H). cbn [snd] in X.
      rewrite !andb_true_iff, !Z.leb_le, !Z.ltb_lt in X. unfold hex_ok. lia. }
    destruct (find_by_value_exact x Hx) as (r & E & X).
    assert (M : exists j, first_place (map snd named_colors) x j /\ (j <= i)%nat).
    { assert (N : nth_error (map snd named_colors) i = Some x) by (rewrite nth_error_map, H; reflexivity).
      clear - N. revert N. generalize (map snd named_colors) as l. intros l. revert l.
      induction i as [|i IH]; intros [|y l] N; try discriminate N.
      - exists 0%nat. split; [|lia]. split; [exact N|]. intros; lia.
      - assert (D : {y = x} + {y <> x}) by (repeat decide equality).
        destruct D as [->|D].
        + exists 0%nat. split; [|lia]. split; [reflexivity|]. intros; lia.
        + destruct (IH l N) as (j & [P Q] & L). exists (S j). split; [|lia]. split; [exact P|].
          intros [|k] Hk; cbn; [congruence|]. apply Q. lia. }
    destruct M as (j & P & L). apply X in P as P'. subst r. destruct P as [P _]. rewrite nth_error_map in P.
    destruct (nth_error named_colors j) as [[s' y]|] eqn:Ej; [|discriminate]. cbn in P. injection P as ->.
    exists j, s'. auto.
Qed.

Example named_ex :
  find_by_name (str "lightgrey") = Some (Some 74%nat) /\ find_by_name (str "Red") = Some None /\
  find_by_value (Hex 211 211 211 255) = Some (Some 72%nat) /\
  map fst (firstn 3 (skipn 72 named_colors)) = [str "lightgray"; str "lightgreen"; str "lightgrey"] /\
  find_by_value (Hex 1 2 3 255) = Some None /\ hex_ok (Hex 211 211 211 255).
Proof. repeat match goal with |- _ /\ _ => split end; try (vm_compute; reflexivity); unfold hex_ok; cbn; lia. Qed.

(* C116: parsing recognises exactly these forms *)
Theorem parse_css_exact : forall (F : Type) (one : F) read s, read [] = None ->
  exists r, parse_css one read s = Some r /\
    forall c, r = Some c <-> css_text one read (map fst named_colors) s c.
Proof. intros F one read s H. exact (parse_css_ok one read H s). Qed.

(* the form of a text is unambiguous *)
Theorem css_text_unambiguous : forall (F : Type) (one : F) read s c c', read [] = None ->
  css_text one read (map fst named_colors) s c -> css_text one read (map fst named_colors) s c' -> c = c'.
Proof.
  intros F one read s c c' H T T'. destruct (parse_css_exact F one read s H) as (r & _ & X).
  apply X in T, T'. congruence.
Qed.

(* numbers that are digit strings, for the examples *)
Fixpoint dec (acc : Z) (s : list Z) : option Z :=
  match s with
  | [] => Some acc
  | c :: s => if (48 <=? c) && (c <=? 57) then dec (10 * acc + (c - 48)) s else None
  end.
Definition read_dec (s : list Z) : option Z := match s with [] => None | _ :: _ => dec 0 s end.

Example parse_css_ex :
  read_dec [] = None /\
  parse_css 1 read_dec (str "#1bF") = Some (Some (CHex (Hex 0x11 0xBB 0xFF 255))) /\
  parse_css 1 read_dec (str "#12345678") = Some (Some (CHex (Hex 0x12 0x34 0x56 0x78))) /\
  parse_css 1 read_dec (str "#12345") = Some None /\
  parse_css 1 read_dec (str "#+23") = Some None /\
  parse_css 1 read_dec (str "rgb(1,  2,3)") = Some (Some (CRgb 1 2 3 1)) /\
  parse_css 1 read_dec (str "rgb(1%, 2%, 3)") = Some None /\
  parse_css 1 read_dec (str "rgba(10%, 20%, 30%, 0)") = Some (Some (CRgbP 10 20 30 0)) /\
  parse_css 1 read_dec (str "hsla(120, 20%, 30%, 0)") = Some (Some (CHsl 120 20 30 0)) /\
  parse_css 1 read_dec (str "hsl(120, 20%, 30%, 0)") = Some None /\
  parse_css 1 read_dec (str "rgb(1, 2, 3") = Some None.
Proof. repeat match goal with |- _ /\ _ => split end; vm_compute; reflexivity. Qed.

(* C117: the text of the hexadecimal form *)
Theorem format_hex_exact : forall (F : Type) (ge_one : F -> bool) print x disable, hex_ok x ->
  format ge_one print (CHex x) disable = Some (hex_form (negb disable) x).
Proof. intros F ge_one print x disable H. exact (format_hex_ok x disable H). Qed.

(* colors that can be written without loss *)
Definition writable {F} (print : F -> list Z) (read : list Z -> option F) (ge_one : F -> bool) (c : css_color F) : Prop :=
  match c with
  | CHex x => hex_ok x
  | CName i => (i < length named_colors)%nat
  | CRgb x y z a | CRgbP x y z a | CHsl x y z a =>
    faithful print read x /\ faithful print read y /\ faithful print read z /\
    (ge_one a = false -> faithful print read a)
  end.

(* alpha values above one mean the same as one *)
Definition with_alpha {F} (one : F) (ge_one : F -> bool) (c : css_color F) : css_color F :=
  let n a := if ge_one a then one else a in
  match c with
  | CRgb x y z a => CRgb x y z (n a)
  | CRgbP x y z a => CRgbP x y z (n a)
  | CHsl x y z a => CHsl x y z (n a)
  | _ => c
  end.

Lemma arg_of {F} print (read : list Z -> option F) v (p : bool) : faithful print read v ->
  arg_text read (print v ++ (if p then [37] else [])) v p.
Proof. intros (R & P & C & _). exists (print v). auto. Qed.

Lemma next_of {F} print (read : list Z -> option F) v (p : bool) : read [] = None -> faithful print read v ->
  next_arg read (44 :: 32 :: print v ++ (if p then [37] else [])) v p.
Proof.
  intros N H. exists 1%nat, (print v ++ (if p then [37] else [])). split; [reflexivity|].
  split; [|now apply arg_of]. destruct H as (R & _ & _ & S). destruct (print v); [congruence|exact S].
Qed.

(* C117: every color reads back from its text, in the same form *)
Theorem format_parse_css : forall (F : Type) (one : F) ge_one print read c disable,
  read [] = None -> writable print read ge_one c ->
  exists s, format ge_one print c disable = Some s /\
    parse_css one read s = Some (Some (with_alpha one ge_one c)).
Proof.
  intros F one ge_one print read c disable N H.
  enough (K : exists s, format ge_one print c disable = Some s /\
    css_text one read (map fst named_colors) s (with_alpha one ge_one c)).
  { destruct K as (s & E & T). exists s. split; [exact E|]. destruct (parse_css_exact F one read s N) as (r & P & X).
    rewrite P. f_equal. now apply X. }
  Ltac args1 := repeat first [rewrite <- app_assoc | progress cbn [app]]; reflexivity.
  destruct c as [x|i|x y z a|x y z a|x y z a]; cbn [writable] in H; cbn [format with_alpha].
  - destruct (hex_form_text x (negb disable) H) as (t & E & T). eexists. split; [exact (format_hex_ok x disable H)|].
    rewrite E. now constructor.
  - unfold format_name. destruct (nth_error named_colors i) as [[s x]|] eqn:E.
    + eexists. split; [reflexivity|]. constructor. rewrite nth_error_map, E. reflexivity.
    + apply nth_error_None in E. lia.
  - destruct H as (Hx & Hy & Hz & Ha). eexists. split; [reflexivity|]. unfold format_rgb. destruct (ge_one a) eqn:E; cbn [negb].
    + match goal with |- css_text _ _ _ ?s _ => replace s with (call "rgb" (print x ++ (44 :: 32 :: print y) ++ (44 :: 32 :: print z))) end.
      2:{ unfold call. cbn [str list_ascii_of_string map]. args1. }
      constructor. exists (print x), (44 :: 32 :: print y), (44 :: 32 :: print z). split; [reflexivity|].
      pose proof (arg_of print read x false Hx) as A1. pose proof (next_of print read y false N Hy) as A2.
      pose proof (next_of print read z false N Hz) as A3. rewrite app_nil_r in A1, A2, A3. auto.
    + specialize (Ha eq_refl).
      match goal with |- css_text _ _ _ ?s _ => replace s with (call "rgba" (print x ++ (44 :: 32 :: print y) ++ (44 :: 32 :: print z) ++ (44 :: 32 :: print a))) end.
      2:{ unfold call. cbn [str list_ascii_of_string map]. args1. }
      constructor. exists (print x), (44 :: 32 :: print y), (44 :: 32 :: print z), (44 :: 32 :: print a). split; [reflexivity|].
      pose proof (arg_of print read x false Hx) as A1. pose proof (next_of print read y false N Hy) as A2.
      pose proof (next_of print read z false N Hz) as A3. pose proof (next_of print read a false N Ha) as A4.
      rewrite app_nil_r in A1, A2, A3, A4. auto.
  - destruct H as (Hx & Hy & Hz & Ha). eexists. split; [reflexivity|]. unfold format_rgb. destruct (ge_one a) eqn:E; cbn [negb].
    + match goal with |- css_text _ _ _ ?s _ => replace s with (call "rgb" ((print x ++ [37]) ++ (44 :: 32 :: print y ++ [37]) ++ (44 :: 32 :: print z ++ [37]))) end.
      2:{ unfold call. cbn [str list_ascii_of_string map]. args1. }
      constructor. exists (print x ++ [37]), (44 :: 32 :: print y ++ [37]), (44 :: 32 :: print z ++ [37]). split; [reflexivity|].
      split; [exact (arg_of print read x true Hx)|]. split; [exact (next_of print read y true N Hy)|exact (next_of print read z true N Hz)].
    + specialize (Ha eq_refl).
      match goal with |- css_text _ _ _ ?s _ => replace s with (call "rgba" ((print x ++ [37]) ++ (44 :: 32 :: print y ++ [37]) ++ (44 :: 32 :: print z ++ [37]) ++ (44 :: 32 :: print a))) end.
      2:{ unfold call. cbn [str list_ascii_of_string map]. args1. }
      constructor. exists (print x ++ [37]), (44 :: 32 :: print y ++ [37]), (44 :: 32 :: print z ++ [37]), (44 :: 32 :: print a). split; [reflexivity|].
      pose proof (next_of print read a false N Ha) as A4. rewrite app_nil_r in A4.
      split; [exact (arg_of print read x true Hx)|]. split; [exact (next_of print read y true N Hy)|]. split; [exact (next_of print read z true N Hz)|exact A4].
  - destruct H as (Hx & Hy & Hz & Ha). eexists. split; [reflexivity|]. unfold format_hsl.
    pose proof (arg_of print read x false Hx) as A1. rewrite app_nil_r in A1. destruct (ge_one a) eqn:E; cbn [negb].
    + match goal with |- css_text _ _ _ ?s _ => replace s with (call "hsl" (print x ++ (44 :: 32 :: print y ++ [37]) ++ (44 :: 32 :: print z ++ [37]))) end.
      2:{ unfold call. cbn [str list_ascii_of_string map]. args1. }
      constructor. exists (print x), (44 :: 32 :: print y ++ [37]), (44 :: 32 :: print z ++ [37]). split; [reflexivity|].
      split; [exact A1|]. split; [exact (next_of print read y true N Hy)|exact (next_of print read z true N Hz)].
    + specialize (Ha eq_refl).
      match goal with |- css_text _ _ _ ?s _ => replace s with (call "hsla" (print x ++ (44 :: 32 :: print y ++ [37]) ++ (44 :: 32 :: print z ++ [37]) ++ (44 :: 32 :: print a))) end.
      2:{ unfold call. cbn [str list_ascii_of_string map]. args1. }
      constructor. exists (print x), (44 :: 32 :: print y ++ [37]), (44 :: 32 :: print z ++ [37]), (44 :: 32 :: print a). split; [reflexivity|].
      pose proof (next_of print read a false N Ha) as A4. rewrite app_nil_r in A4.
      split; [exact A1|]. split; [exact (next_of print read y true N Hy)|]. split; [exact (next_of print read z true N Hz)|exact A4].
Qed.

(* numbers below 10, for the example *)
Definition print_dec (v : Z) : list Z := [48 + v].

Example format_css_ex :
  writable print_dec read_dec (Z.leb 1) (CHsl 3 4 5 0) /\
  format (Z.leb 1) print_dec (CHsl 3 4 5 0) false = Some (str "hsla(3, 4%, 5%, 0)") /\
  format (Z.leb 1) print_dec (CRgb 3 4 5 2) false = Some (str "rgb(3, 4, 5)") /\
  with_alpha 1 (Z.leb 1) (CRgb 3 4 5 2) = CRgb 3 4 5 1 /\
  format (Z.leb 1) print_dec (CHex (Hex 0x11 0xBB 0xFF 0)) false = Some (str "#1BF0") /\
  format (Z.leb 1) print_dec (CHex (Hex 0x11 0xBB 0xFF 0)) true = Some (str "#11BBFF00") /\
  format (Z.leb 1) print_dec (CHex (Hex 0x11 0xBC 0xFF 255)) false = Some (str "#11BCFF").
Proof.
  repeat match goal with |- _ /\ _ => split end; try (vm_compute; reflexivity).
  all: unfold writable, faithful; repeat match goal with |- _ /\ _ => split end; intros; repeat split;
    try reflexivity; cbn; intuition discriminate.
Qed.

(* C118: what as_css_color() writes *)
Theorem write_color_exact : forall (F : Type) (ge_one : F -> bool) print x, hex_ok x ->
  (exists i s, first_place (map snd named_colors) x i /\ nth_error named_colors i = Some (s, x) /\
     write_color ge_one print x = Some s) \/
  ((forall i s, nth_error named_colors i <> Some (s, x)) /\
     write_color ge_one print x = Some (hex_form false x) /\
     length (hex_form false x) = if h_a x =? 255 then 7%nat else 9%nat).
Proof.
  intros F ge_one print x H. unfold write_color. destruct (find_by_value_exact x H) as (r & -> & X). cbn [obind].
  destruct r as [i|].
  - left. pose proof (proj1 (X i) eq_refl) as P. exists i. destruct P as [P Q].
    pose proof P as P'. rewrite nth_error_map in P'. destruct (nth_error named_colors i) as [[s y]|] eqn:E; [|discriminate].
    cbn in P'. injection P' as ->. exists s. split; [split; assumption|]. split; [reflexivity|].
    cbn [format]. unfold format_name. rewrite E. reflexivity.
  - right. split; [|split].
    + intros i s E. destruct (named_colors_found i s x E) as (_ & j & s' & _ & _ & E'). clear E.
      assert (M : exists k, first_place (map snd named_colors) x k).
      { destruct (named_colors_found j s' x E') as (_ & k & s2 & V & _ & _).
        destruct (find_by_value_exact x H) as (r & R & Y). exists k. apply Y. congruence. }
      destruct M as (k & M). apply X in M. discriminate.
    + exact (format_hex_ok x true H).
    + unfold hex_form, color_digits. cbn [andb]. destruct (h_a x =? 255); reflexivity.
Qed.

(* C118: reading back what was written gives the same color *)
Theorem write_read_color : forall (F : Type) (one : F) (ge_one : F -> bool) print read to_hex x, read [] = None -> hex_ok x ->
  exists s, write_color ge_one print x = Some s /\ read_color one read to_hex s = Some (Some x).
Proof.
  intros F one ge_one print read to_hex x N H.
  assert (K : forall s c, css_text one read (map fst named_colors) s c -> get_as_hex to_hex c = Some x ->
    read_color one read to_hex s = Some (Some x)).
  { intros s c T G. unfold read_color. destruct (parse_css_exact F one read s N) as (r & -> & X). apply X in T. subst r.
    cbn [obind]. rewrite G. reflexivity. }
  destruct (write_color_exact F ge_one print x H) as [(i & s & _ & E & W)|(_ & W & _)].
  - exists s. split; [exact W|]. apply (K s (CName i)).
    + constructor. rewrite nth_error_map, E. reflexivity.
    + cbn [get_as_hex]. unfold get_named_color. rewrite E. reflexivity.
  - eexists. split; [exact W|]. destruct (hex_form_text x false H) as (t & E & T). rewrite E.
    apply (K (35 :: t) (CHex x)); [now constructor|reflexivity].
Qed.

Example write_color_ex :
  write_color (Z.leb 1) print_dec (Hex 0 255 255 255) = Some (str "aqua") /\
  write_color (Z.leb 1) print_dec (Hex 0 0 0 0) = Some (str "transparent") /\
  write_color (Z.leb 1) print_dec (Hex 0x11 0x22 0x33 255) = Some (str "#112233") /\
  write_color (Z.leb 1) print_dec (Hex 0x11 0x22 0x33 254) = Some (str "#112233FE") /\
  read_color 1 read_dec (fun _ => Hex 0 0 0 0) (str "cyan") = Some (Some (Hex 0 255 255 255)) /\
  read_color 1 read_dec (fun _ => Hex 0 0 0 0) (str "cyan ") = Some None.
Proof. repeat match goal with |- _ /\ _ => split end; vm_compute; reflexivity. Qed.

(* C119: every color keyword of CSS Level 3, in lower case, other than yellowgreen, is
   understood with the right value; and conversely every named color is one of these *)
Theorem css3_names_partial : forall (F : Type) (one : F) read to_hex name x,
  css3_keyword name x -> name <> "yellowgreen"%string ->
  read_color one read to_hex (str name) = Some (Some x).
Proof.
  intros F one read to_hex name x H N.
  assert (K : forall n y, In (str n, y) named_colors -> read_color one read to_hex (str n) = Some (Some y)).
  { intros n y I. apply In_nth_error in I. destruct I as (i & I). destruct (named_colors_found i _ _ I) as (E & _).
    assert (I' : nth_error color_names i = Some (str n)) by (unfold color_names; rewrite nth_error_map, I; reflexivity).
    apply names_plain in I'. destruct I' as (P1 & P2 & P3).
    unfold read_color, parse_css. destruct (str n) as [|ch s] eqn:S; [congruence|]. cbn in P1.
    replace (ch =? 35) with false by (symmetry; now apply Z.eqb_neq).
    replace (last (ch :: s) 0 =? 41) with false by (symmetry; now apply Z.eqb_neq).
    rewrite E. cbn [obind option_map get_as_hex]. unfold get_named_color. rewrite I. reflexivity. }
  apply K. destruct H as [(r & g & b & I & ->)|[-> ->]].
  - assert (X : forallb (fun e => if string_dec (fst e) "yellowgreen" then true else
        existsb (fun f => sv_eq (fst f) (str (fst e)) && (h_r (snd f) =? fst (fst (snd e))) &&
          (h_g (snd f) =? snd (fst (snd e))) && (h_b (snd f) =? snd (snd e)) && (h_a (snd f) =? 255)) named_colors)
        css3_colors = true) by (vm_compute; reflexivity).
    rewrite forallb_forall in X. specialize (X _ I). cbn [fst snd] in X.
    destruct (string_dec name "yellowgreen") as [|_]; [congruence|]. apply existsb_exists in X.
    destruct X as ([n [xr xg xb xa]] & J & X). cbn [fst snd h_r h_g h_b h_a] in X.
    rewrite !andb_true_iff, !Z.eqb_eq, sv_eq_ok in X. destruct X as [[[[-> ->] ->] ->] ->]. exact J.
  - left. reflexivity.
Qed.

Theorem named_colors_css3 : forall i s x, nth_error named_colors i = Some (s, x) ->
  exists name, s = str name /\ css3_keyword name x.
Proof.
  intros i s x H. apply nth_error_In in H.
  assert (X : forallb (fun f => existsb (fun e => sv_eq (fst f) (str (fst e)) && (h_r (snd f) =? fst (fst (snd e))) &&
          (h_g (snd f) =? snd (fst (snd e))) && (h_b (snd f) =? snd (snd e)) && (h_a (snd f) =? 255)) css3_colors ||
        (sv_eq (fst f) (str "transparent") && (h_r (snd f) =? 0) && (h_g (snd f) =? 0) && (h_b (snd f) =? 0) && (h_a (snd f) =? 0)))
        named_colors = true) by (vm_compute; reflexivity).
  rewrite forallb_forall in X. specialize (X _ H). cbn [fst snd] in X. destruct x as [xr xg xb xa]. cbn [h_r h_g h_b h_a] in X.
  apply orb_true_iff in X. destruct X as [X|X].
  - apply existsb_exists in X. destruct X as ([n [[r g] b]] & J & X). cbn [fst snd] in X.
    rewrite !andb_true_iff, !Z.eqb_eq, sv_eq_ok in X. destruct X as [[[[-> ->] ->] ->] ->].
    exists n. split; [reflexivity|]. left. exists r, g, b. auto.
  - rewrite !andb_true_iff, !Z.eqb_eq, sv_eq_ok in X. destruct X as [[[[-> ->] ->] ->] ->].
    exists "transparent"%string. split; [reflexivity|]. right. auto.
Qed.

(* the documentation has it that all forms of CSS Level 3 are accepted when parsing; the
   keyword yellowgreen is not, and no keyword is in upper case *)
Theorem css3_names_refuted : forall (F : Type) (one : F) read to_hex,
  ~ (forall name x, css3_keyword name x -> read_color one read to_hex (str name) = Some (Some x)) /\
  ~ (forall s x, css3_name_text s x -> map to_lower s <> str "yellowgreen" ->
       read_color one read to_hex s = Some (Some x)).
Proof.
  intros F one read to_hex. split; intros H.
  - specialize (H "yellowgreen"%string (Hex 154 205 50 255)).
    assert (X : css3_keyword "yellowgreen" (Hex 154 205 50 255)).
    { left. exists 154, 205, 50. split; [|reflexivity]. apply (nth_error_In css3_colors 146). vm_compute. reflexivity. }
    specialize (H X). vm_compute in H. discriminate H.
  - specialize (H (str "Red") (Hex 255 0 0 255)).
    assert (X : css3_name_text (str "Red") (Hex 255 0 0 255)).
    { exists "red"%string. split; [|reflexivity]. left. exists 255, 0, 0. split; [|reflexivity].
      apply (nth_error_In css3_colors 119). vm_compute. reflexivity. }
    specialize (H X ltac:(vm_compute; discriminate)). vm_compute in H. discriminate H.
Qed.

Print Assumptions find_by_name_exact.
Print Assumptions find_by_value_exact.
Print Assumptions named_colors_found.
Print Assumptions parse_css_exact.
Print Assumptions css_text_unambiguous.
Print Assumptions format_hex_exact.
Print Assumptions format_parse_css.
Print Assumptions write_color_exact.
Print Assumptions write_read_color.
Print Assumptions css3_names_partial.
Print Assumptions named_colors_css3.
Print Assumptions css3_names_refuted.
