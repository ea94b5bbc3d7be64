(* Lemmas for C51: the choice between the quoted and the unquoted form. *)
From Coq Require Import ZArith Bool List Lia ZifyBool.
From Verif Require Import CInt ArrLib QuoteModel QuoteSpec QuoteProofs QuoteProofs2.
Import ListNotations.
Open Scope Z_scope.

Section Smart.
  Variables (W : Z) (C U : ity).
  Variables print xdigit space : Z -> bool.
  Variable quote : Z.
  Variable max_size : Z.
  Notation render := (render C U print xdigit quote).
  Notation find := (find print xdigit space quote).
  Notation pieces := (pieces C U print xdigit quote).
  Notation again_1 := (again_1 C U print xdigit quote max_size).
  Notation again_2 := (again_2 W C U print xdigit space quote max_size).
  Notation no_max_size := (no_max_size W max_size).
  Notation max_size_1 := (max_size_1 max_size).
  Notation max_size_2 := (max_size_2 max_size).
  Notation max_size_3 := (max_size_3 max_size).
  Notation form := (form quote).
  Notation smart_quoted := (smart_quoted W C U print xdigit space quote max_size).

  Notation simple_char := (plain_char print space quote).

  Lemma find_simple l : forall k, (k <= length l)%nat ->
    (Forall simple_char (firstn k l) <-> (k <= find false l)%nat).
  Proof.
    induction l as [|c l IH]; intros k H; cbn [length] in H.
    - rewrite firstn_nil. cbn. split; [lia|constructor].
    - destruct k as [|k]; [cbn; split; [lia|constructor]|]. cbn [firstn QuoteModel.find].
      rewrite Forall_cons_iff. rewrite (IH k) by lia. cbn [andb]. rewrite orb_false_r.
      unfold plain_char, bslash in *.
      destruct (negb (space c) && negb ((c =? quote) || (c =? 92) || negb (print c))) eqn:E.
      + split; [lia|]. intros Hk. split; [|lia]. destruct (print c), (space c); cbn in E; lia.
      + split; [|lia]. intros [(Hp & Hs & Hq & Hb) _]. exfalso. rewrite Hp, Hs in E. cbn in E. lia.
  Qed.

  Lemma find_firstn_min m : forall fh l, find fh (firstn m l) = Nat.min m (find fh l).
  Proof.
    induction m as [|m IH]; intros fh l; [reflexivity|].
    destruct l as [|c l]; [reflexivity|]. cbn [firstn QuoteModel.find]. rewrite IH.
    destruct (_ && _); lia.
  Qed.

  Definition max_size_4 : Z := if max_size >=? 3 then max_size else 3.

  (* the number of characters in front of the ellipsis in the unquoted form *)
  Definition prefix_size (string : list Z) : nat :=
    Nat.min (find false string) (Z.to_nat (max_size_4 - 3)).

  Lemma unquoted_form_ok string u uc : max_size_4 = Z.max 3 max_size ->
    unquoted_form simple_char string max_size_4 u uc ->
    if (size string <=? max_size_4) && Nat.eqb (find false string) (length string)
    then u = string /\ uc = length string
    else u = firstn (prefix_size string) string ++ dots /\ uc = prefix_size string /\ (prefix_size string < length string)%nat.
  Proof.
    intros Hm4 H. pose proof (find_length print xdigit space quote false string) as Hfl.
    assert (Hall : Forall simple_char string <-> find false string = length string).
    { rewrite <- (firstn_all string) at 1. rewrite find_simple by lia. lia. }
    assert (Hm : 3 <= max_size_4) by lia.
    destruct H as [(A & B & D & E)|(A & B & D & E & F & G)].
    - apply Hall in B. change (text_size string) with (size string) in A.
      replace ((size string <=? max_size_4) && _) with true by lia. auto.
    - change (text_size string) with (size string) in A.
      assert (Hn : (size string <=? max_size_4) && (find false string =? length string)%nat = false).
      { destruct (_ && _) eqn:X; [|reflexivity]. exfalso. apply A. split; [lia|apply Hall; lia]. }
      rewrite Hn. apply find_simple in E; [|assumption].
      assert (Hlt : (prefix_size string < length string)%nat).
      { unfold prefix_size. unfold size in *. lia. }
      assert (uc = prefix_size string).
      { assert (uc <= prefix_size string)%nat by (unfold prefix_size; lia).
        destruct (Nat.eq_dec uc (prefix_size string)) as [|Hne]; [assumption|]. exfalso.
        apply (F (prefix_size string)); [lia|]. split; [unfold prefix_size; lia|].
        apply find_simple; [lia|]. unfold prefix_size. lia. }
      subst uc. repeat split; assumption.
  Qed.

  (* the part of the function after the size of the prefix has been decided *)
  Definition after (string : list Z) (n : nat) : option (list Z) :=
    let? (buffer, follows_hex) := render (skipn n string) false in
    if no_max_size || (Z.of_nat n + size buffer <=? max_size_3) then
      let? rest := again_2 (length (skipn n string)) (tl (skipn n string)) (Z.of_nat n + size buffer) follows_hex in
      Some (quote :: firstn n string ++ buffer ++ rest)
    else
      let? r := again_1 (skipn n string) buffer (Z.of_nat n) follows_hex in
      match r with
      | None => Some (firstn n string ++ dots)
      | Some buffer => Some (quote :: firstn n string ++ buffer ++ [quote])
      end.

  Lemma smart_quoted_after string : string <> [] ->
    smart_quoted string =
    if no_max_size || (size string <=? max_size_4) then
      if Nat.eqb (find false string) (length string) then Some string
      else if no_max_size || (Z.of_nat (find false string) <=? max_size_4 - 3) then after string (find false string)
      else after string (Z.to_nat (max_size_4 - 3))
    else after string (find false (firstn (Z.to_nat (max_size_4 - 3)) string)).
  Proof. intros H. destruct string as [|c s]; [congruence|]. reflexivity. Qed.

  Lemma smart_quoted_max string : string <> [] -> no_max_size = false ->
    smart_quoted string =
    if (size string <=? max_size_4) && Nat.eqb (find false string) (length string) then Some string
    else after string (prefix_size string).
  Proof.
    intros H En. rewrite smart_quoted_after by assumption. rewrite En. cbn [orb].
    assert (3 <= max_size_4) by (unfold max_size_4; destruct (max_size >=? 3) eqn:?; lia).
    unfold prefix_size. destruct (size string <=? max_size_4); cbn [andb].
    - destruct (find false string =? length string)%nat; [reflexivity|].
      destruct (Z.of_nat (find false string) <=? max_size_4 - 3) eqn:E; f_equal; lia.
    - rewrite find_firstn_min. f_equal. lia.
  Qed.

  Hypothesis HC : ity_ok C.
  Hypothesis HC8 : 8 <= iwidth C.
  Hypothesis HU : ity_ok U.
  Hypothesis HUu : isigned U = false.
  Hypothesis HW : iwidth C <= iwidth U.
  Hypothesis Hquote : quote = 34 \/ quote = 39.
  Hypothesis Hnl : print 10 = false.

  Lemma again_1_ok rest : forall c buffer n fh, Forall (in_range C) rest ->
    again_1 (c :: rest) buffer n fh =
    Some (let buf := buffer ++ concat (pieces fh rest) in
          if n + size buf >? max_size_2 then None
          else if (n + size buf + 2 <=? max_size) || (size buf + 2 <=? 3) then Some buf else None).
  Proof.
    induction rest as [|c' rest IH]; intros c buffer n fh Hr; cbn [QuoteModel.again_1]; cbv zeta.
    - cbn [QuoteProofs.pieces concat]. rewrite app_nil_r.
      destruct (n + size buffer >? max_size_2); [reflexivity|].
      replace (negb ((n + size buffer >? max_size) || (2 >? max_size - (n + size buffer))) ||
               negb ((size buffer >? 3) || (2 >? 3 - size buffer)))
        with ((n + size buffer + 2 <=? max_size) || (size buffer + 2 <=? 3)) by lia.
      destruct (_ || _); reflexivity.
    - inversion Hr as [|? ? Hc' Hr']; subst.
      destruct (render_some C U print xdigit quote HC8 HU HUu HW Hquote Hnl c' rest fh Hc')
        as (p & fh' & E & Ep & Hp).
      rewrite Ep. cbn [concat].
      pose proof (size_nonneg p). pose proof (size_nonneg (concat (pieces fh' rest))).
      destruct (n + size buffer >? max_size_2) eqn:E1.
      + rewrite !size_app. replace (n + (size buffer + (size p + size (concat (pieces fh' rest)))) >? max_size_2) with true by lia. reflexivity.
      + rewrite E. cbn [obind]. specialize (IH c' (buffer ++ p) n fh' Hr').
        cbn [QuoteModel.again_1] in IH. rewrite IH. cbv zeta. now rewrite <- !app_assoc.
  Qed.

  (* the text after the prefix *)
  Lemma after_ok string n : Forall (in_range C) string -> (n < length string)%nat -> (n <= find false string)%nat ->
    (no_max_size = true -> size (concat (pieces false string)) <= max_size_3) ->
    exists p P, pieces false string = single (firstn n string) ++ p :: P /\ p <> [] /\
      length P = (length string - n - 1)%nat /\
      after string n =
      Some (if no_max_size || (Z.of_nat n + size p <=? max_size_3) then quote :: form max_size_2 (pieces false string)
            else
              let buf := p ++ concat P in
              if Z.of_nat n + size buf >? max_size_2 then firstn n string ++ dots
              else if (Z.of_nat n + size buf + 2 <=? max_size) || (size buf + 2 <=? 3)
              then quote :: firstn n string ++ buf ++ [quote]
              else firstn n string ++ dots).
  Proof.
    intros Hr Hn Hf Hno.
    destruct (max_sizes max_size) as (M2 & M3 & M5 & _).
    pose proof (find_pieces C U print xdigit space quote n false string Hf) as EP.
    replace (if (0 <? n)%nat then false else false) with false in EP by (now destruct (0 <? n)%nat).
    destruct (skipn_cons string n Hn) as [c Ec].
    assert (Hr2 := Forall_skipn _ n _ Hr). rewrite Ec in Hr2. inversion Hr2 as [|? ? Hc Hr3]; subst.
    destruct (render_some C U print xdigit quote HC8 HU HUu HW Hquote Hnl c (skipn (S n) string) false Hc)
      as (p & fh' & E & Ep & Hp).
    rewrite Ec, Ep in EP. exists p, (pieces fh' (skipn (S n) string)).
    split; [exact EP|]. split; [exact Hp|].
    split. { rewrite pieces_length by assumption. rewrite skipn_length. lia. }
    rewrite EP in Hno |- *.
    assert (Hsn : size (firstn n string) = Z.of_nat n) by (unfold size; rewrite firstn_length; lia).
    rewrite concat_app, concat_single, size_app, Hsn in Hno. cbn [concat] in Hno. rewrite size_app in Hno.
    pose proof (size_nonneg (concat (pieces fh' (skipn (S n) string)))).
    unfold after. rewrite Ec, E. cbn [obind tl].
    destruct (no_max_size || (Z.of_nat n + size p <=? max_size_3)) eqn:E1.
    - assert (Hle : Z.of_nat n + size p <= max_size_3).
      { destruct no_max_size; [specialize (Hno eq_refl); lia|cbn in E1; lia]. }
      pose proof (size_nonneg p).
      rewrite again_2_ok; try assumption.
      + cbn [obind]. rewrite form_app by (rewrite concat_single, Hsn; lia). rewrite concat_single, Hsn.
        change (p :: ?x) with ([p] ++ x). rewrite form_app by (cbn [concat]; rewrite app_nil_r; lia).
        cbn [concat]. rewrite app_nil_r. now rewrite Z.sub_add_distr.
      + rewrite <- Ec. rewrite !skipn_length. lia.
      + intros En. specialize (Hno En). lia.
    - rewrite again_1_ok by assumption. cbn [obind]. cbv zeta. clear E1.
      destruct (_ >? max_size_2); [reflexivity|].
      match goal with |- context[if ?b then Some _ else None] => destruct b end; reflexivity.
  Qed.

  Theorem smart_choice string u uc qd qc :
    Forall (in_range C) string -> no_max_size = false -> 0 <= max_size ->
    unquoted_form simple_char string (Z.max 3 max_size) u uc ->
    quoted_form quote (pieces false string) (Z.max 5 max_size) qd qc ->
    (use_unquoted string max_size u uc qd qc /\ smart_quoted string = Some u) \/
    (~ use_unquoted string max_size u uc qd qc /\ smart_quoted string = Some qd).
  Proof.
    intros Hr En Hm0 Hu Hq.
    destruct (max_sizes max_size) as (M2 & M3 & M5 & M1).
    assert (M4 : max_size_4 = Z.max 3 max_size) by (unfold max_size_4; destruct (max_size >=? 3) eqn:?; lia).
    assert (Eq := quoted_form_form quote _ (Z.max 5 max_size) _ _ ltac:(lia) Hq). rewrite <- M1, <- M2 in Eq.
    destruct string as [|c0 s0].
    { right. split; [intros [H _]; congruence|]. cbn [QuoteModel.smart_quoted].
      rewrite quoted_ok by (try assumption; congruence). rewrite <- M2. now rewrite Eq. }
    set (string := c0 :: s0) in *. assert (Hne : string <> []) by (unfold string; discriminate).
    clearbody string. clear c0 s0.
    rewrite smart_quoted_max by assumption. rewrite <- M4 in Hu. apply unquoted_form_ok in Hu; [|assumption].
    pose proof (pieces_length C U print xdigit quote HC8 HU HUu HW Hquote Hnl false string Hr) as HPl.
    pose proof (total_ge C U print xdigit quote HC8 HU HUu HW Hquote Hnl false string Hr) as Htot.
    unfold use_unquoted. change text_size with size.
    destruct ((size string <=? max_size_4) && _) eqn:E0.
    - destruct Hu as [-> ->]. left. split; [|reflexivity]. split; [assumption|].
      destruct Hq as [(A & B & D)|(A & B & D & F & G)].
      + change text_size with size in *. rewrite D.
        change (quote :: ?x) with ([quote] ++ x). rewrite !size_app. change (size [quote]) with 1.
        destruct (Z_le_gt_dec (size (concat (pieces false string)) + 2) max_size); [left|right]; lia.
      + change text_size with size in *. rewrite G.
        change (quote :: ?x) with ([quote] ++ x). rewrite !size_app. change (size [quote]) with 1.
        change (size ellipsis) with 3.
        pose proof (size_nonneg (concat (firstn qc (pieces false string)))). clear F.
        destruct (Z_le_gt_dec (size (concat (firstn qc (pieces false string))) + 5) max_size); [left|right]; lia.
    - destruct Hu as (-> & -> & Hlt).
      assert (Hn4 : Z.of_nat (prefix_size string) <= max_size_4 - 3) by (unfold prefix_size; lia).
      assert (Hnf : (prefix_size string <= find false string)%nat) by (unfold prefix_size; lia).
      set (n := prefix_size string) in *. clearbody n.
      assert (Hsn : size (firstn n string) = Z.of_nat n) by (unfold size; rewrite firstn_length; lia).
      destruct (after_ok string n Hr Hlt Hnf ltac:(congruence)) as (p & P & EP & Hp & HlP & EA).
      rewrite EA, En. cbn [orb]. clear EA.
      assert (Hfull : size (concat (pieces false string)) = Z.of_nat n + size (p ++ concat P)).
      { rewrite EP, concat_app, concat_single, size_app, Hsn. reflexivity. }
      assert (Hf1 : size (concat (firstn (S n) (pieces false string))) = Z.of_nat n + size p).
      { rewrite EP. replace (S n) with (length (single (firstn n string)) + 1)%nat
          by (unfold single; rewrite map_length, firstn_length; lia).
        rewrite firstn_app_2, concat_app, concat_single, size_app, Hsn. cbn. now rewrite app_nil_r. }
      rewrite (size_app (firstn n string)), Hsn. change (size dots) with 3.
      pose proof (size_cons_pos _ Hp) as Hp1.
      assert (Hbuf : size p <= size (p ++ concat P)) by (rewrite size_app; pose proof (size_nonneg (concat P)); lia).
      destruct (Z.of_nat n + size p <=? max_size_3) eqn:E1.
      + (* more characters in the quoted form *)
        right. split; [|now rewrite Eq].
        assert (Hqc : (n < qc)%nat).
        { destruct Hq as [(A & B & D)|(A & B & D & F & G)]; [lia|].
          destruct (le_lt_dec qc n) as [L|]; [|assumption]. specialize (F (S n) ltac:(lia)).
          change text_size with size in F. rewrite Hf1 in F. lia. }
        assert (size qd <= Z.max 5 max_size).
        { destruct Hq as [(A & B & D)|(A & B & D & F & G)]; subst qd; change text_size with size in *;
          change (quote :: ?x) with ([quote] ++ x); rewrite !size_app; change (size [quote]) with 1;
          try change (size ellipsis) with 3; lia. }
        intros [_ [X|X]]; lia.
      + cbv zeta.
        destruct (Z.of_nat n + size (p ++ concat P) >? max_size_2) eqn:E2.
        * left. split; [|reflexivity]. split; [assumption|].
          destruct Hq as [(A & B & D)|(A & B & D & F & G)]; [change text_size with size in *; lia|].
          change text_size with size in *.
          assert (Hqc : (qc <= n)%nat).
          { destruct (le_lt_dec qc n) as [|L]; [assumption|].
            pose proof (concat_firstn_mono (pieces false string) (S n) qc ltac:(lia)). lia. }
          subst qd. change (quote :: ?x) with ([quote] ++ x). rewrite !size_app. change (size [quote]) with 1.
          change (size ellipsis) with 3.
          pose proof (size_nonneg (concat (firstn qc (pieces false string)))). clear F Eq.
          destruct (Z_le_gt_dec 5 max_size); [left|right]; lia.
        * destruct Hq as [(A & B & D)|(A & B & D & F & G)]; [|change text_size with size in *; lia].
          change text_size with size in *. rewrite HPl in B.
          assert (Dq : size qd = Z.of_nat n + size (p ++ concat P) + 2).
          { rewrite D. change (quote :: ?x) with ([quote] ++ x). rewrite !size_app. change (size [quote]) with 1. rewrite size_app in *. lia. }
          destruct (_ || _) eqn:E3.
          -- right. split; [intros [_ [H|H]]; lia|]. rewrite D, EP, concat_app, concat_single. cbn [concat]. now rewrite <- !app_assoc.
          -- left. split; [|reflexivity]. split; [assumption|right]. lia.
  Qed.

  Theorem smart_unlimited string :
    Forall (in_range C) string -> no_max_size = true ->
    size (concat (pieces false string)) <= max_size_3 ->
    (string <> [] /\ Forall simple_char string /\ smart_quoted string = Some string) \/
    (~ (string <> [] /\ Forall simple_char string) /\
     smart_quoted string = Some (quote :: concat (pieces false string) ++ [quote])).
  Proof.
    intros Hr En Hs. destruct (max_sizes max_size) as (M2 & M3 & M5 & M1).
    assert (Ef : form max_size_2 (pieces false string) = concat (pieces false string) ++ [quote]).
    { unfold QuoteProofs2.form. replace (_ <=? max_size_2) with true by lia. reflexivity. }
    destruct string as [|c0 s0].
    { right. split; [intros [H _]; congruence|]. cbn [QuoteModel.smart_quoted].
      rewrite quoted_ok by (try assumption; intros; assumption). rewrite <- M2. now rewrite Ef. }
    set (string := c0 :: s0) in *. assert (Hne : string <> []) by (unfold string; discriminate).
    clearbody string. clear c0 s0.
    assert (Hall : Forall simple_char string <-> find false string = length string).
    { rewrite <- (firstn_all string) at 1. rewrite find_simple by lia.
      pose proof (find_length print xdigit space quote false string). lia. }
    rewrite smart_quoted_after by assumption. rewrite En. cbn [orb].
    destruct (find false string =? length string)%nat eqn:E.
    - left. split; [assumption|]. split; [apply Hall; lia|reflexivity].
    - right. split; [intros [_ H]; apply Hall in H; lia|].
      pose proof (find_length print xdigit space quote false string).
      destruct (after_ok string (find false string) Hr ltac:(lia) ltac:(lia) ltac:(intros; assumption))
        as (p & P & _ & _ & _ & EA).
      rewrite EA, En. cbn [orb]. now rewrite Ef.
  Qed.
End Smart.
