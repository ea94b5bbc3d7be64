(* Lemmas for C42 and C51: the quoted form. *)
From Coq Require Import ZArith Bool List Lia ZifyBool.
From Verif Require Import CInt ArrLib QuoteModel QuoteSpec QuoteProofs.
Import ListNotations.
Open Scope Z_scope.

Lemma size_app a b : size (a ++ b) = size a + size b.
Proof. unfold size. rewrite app_length. lia. Qed.

Lemma size_nonneg a : 0 <= size a.
Proof. unfold size. lia. Qed.

Lemma size_cons_pos a : a <> [] -> 1 <= size a.
Proof. destruct a; [congruence|]. unfold size. cbn. lia. Qed.

Definition single (l : list Z) : list (list Z) := map (fun c => [c]) l.

Lemma concat_single l : concat (single l) = l.
Proof. induction l as [|c l IH]; [reflexivity|]. cbn. now f_equal. Qed.

(* number of pieces that fit *)
Fixpoint fit (room : Z) (P : list (list Z)) : nat :=
  match P with
  | [] => O
  | p :: P => if size p <=? room then S (fit (room - size p) P) else O
  end.

Lemma fit_app A P : forall room, size (concat A) <= room ->
  fit room (A ++ P) = (length A + fit (room - size (concat A)) P)%nat.
Proof.
  induction A as [|a A IH]; intros room H; cbn [app concat length fit] in *.
  - change (size []) with 0. now rewrite Z.sub_0_r.
  - rewrite size_app in *. pose proof (size_nonneg (concat A)).
    replace (size a <=? room) with true by lia. rewrite IH by lia. cbn [Nat.add]. do 2 f_equal. f_equal. lia.
Qed.

Lemma fit_le P : forall room, (fit room P <= length P)%nat.
Proof.
  induction P as [|p P IH]; intros room; cbn [fit length]; [lia|].
  destruct (size p <=? room); [specialize (IH (room - size p)); lia|lia].
Qed.

Lemma fit_size P : forall room, 0 <= room -> size (concat (firstn (fit room P) P)) <= room.
Proof.
  induction P as [|p P IH]; intros room H; cbn [fit]; [cbn; lia|].
  destruct (size p <=? room) eqn:E; cbn [firstn concat]; [|cbn; lia].
  rewrite size_app. specialize (IH (room - size p)). lia.
Qed.

Lemma fit_max P : forall room k, (fit room P < k <= length P)%nat -> size (concat (firstn k P)) > room.
Proof.
  induction P as [|p P IH]; intros room k H; cbn [fit length] in H; [lia|].
  destruct k as [|k]; [lia|]. cbn [firstn concat]. rewrite size_app.
  destruct (size p <=? room) eqn:E.
  - specialize (IH (room - size p) k). lia.
  - pose proof (size_nonneg (concat (firstn k P))). lia.
Qed.

Section Form.
  Variable quote : Z.

  Definition form (R : Z) (P : list (list Z)) : list Z :=
    if size (concat P) <=? R then concat P ++ [quote]
    else concat (firstn (fit (R - 3) P) P) ++ dots ++ [quote].

  Lemma form_app R A P : size (concat A) <= R - 3 ->
    form R (A ++ P) = concat A ++ form (R - size (concat A)) P.
  Proof.
    intros H. unfold form. rewrite concat_app, size_app.
    replace (size (concat A) + size (concat P) <=? R) with (size (concat P) <=? R - size (concat A)) by lia.
    destruct (size (concat P) <=? R - size (concat A)); [now rewrite app_assoc|].
    rewrite fit_app by assumption. rewrite firstn_app_2, concat_app, <- app_assoc.
    do 3 f_equal. f_equal. f_equal. lia.
  Qed.

  (* nothing more fits *)
  Lemma form_stop R p P : R - 3 < size p ->
    form R (p :: P) = if size (concat (p :: P)) <=? R then concat (p :: P) ++ [quote] else dots ++ [quote].
  Proof.
    intros H. unfold form. cbn [fit]. replace (size p <=? R - 3) with false by lia. reflexivity.
  Qed.

  Lemma form_spec P adj : 5 <= adj ->
    exists count, quoted_form quote P adj (quote :: form (adj - 2) P) count.
  Proof.
    intros H. unfold form, quoted_form. change text_size with size.
    destruct (size (concat P) <=? adj - 2) eqn:E.
    - exists (length P). left. split; [lia|]. split; reflexivity.
    - exists (fit (adj - 2 - 3) P). right. split; [lia|]. split; [apply fit_le|].
      split; [pose proof (fit_size P (adj - 2 - 3)); lia|]. split; [|reflexivity].
      intros k Hk. pose proof (fit_max P (adj - 2 - 3) k Hk). lia.
  Qed.

  Lemma concat_firstn_mono P k k' : (k <= k')%nat -> size (concat (firstn k P)) <= size (concat (firstn k' P)).
  Proof.
    revert k k'. induction P as [|p P IH]; intros k k' H; [rewrite !firstn_nil; lia|].
    destruct k as [|k]; [cbn; apply size_nonneg|]. destruct k' as [|k']; [lia|]. cbn [firstn concat].
    rewrite !size_app. specialize (IH k k'). lia.
  Qed.

  Lemma quoted_form_unique P adj o1 c1 o2 c2 :
    quoted_form quote P adj o1 c1 -> quoted_form quote P adj o2 c2 -> o1 = o2 /\ c1 = c2.
  Proof.
    intros [(A & B & D)|(A & B & D & F & G)] [(A' & B' & D')|(A' & B' & D' & F' & G')]; try lia.
    - split; congruence.
    - assert (c1 = c2).
      { destruct (lt_eq_lt_dec c1 c2) as [[L|?]|L]; [|assumption|].
        - specialize (F c2). lia.
        - specialize (F' c1). lia. }
      subst. split; reflexivity.
  Qed.

  Lemma quoted_form_form P adj out count : 5 <= adj ->
    quoted_form quote P adj out count -> out = quote :: form (adj - 2) P.
  Proof.
    intros H Q. destruct (form_spec P adj H) as [c Hc].
    now destruct (quoted_form_unique _ _ _ _ _ _ Q Hc).
  Qed.
End Form.

Section Find.
  Variables (C U : ity).
  Variables print xdigit space : Z -> bool.
  Variable quote : Z.
  Notation render := (render C U print xdigit quote).
  Notation find := (find print xdigit space quote).
  Notation pieces := (pieces C U print xdigit quote).

  Lemma find_length fh l : (find fh l <= length l)%nat.
  Proof.
    revert fh. induction l as [|c l IH]; intros fh; cbn [QuoteModel.find length]; [lia|].
    specialize (IH false). destruct (_ && _); lia.
  Qed.

  Lemma find_firstn n : forall fh l, (find fh (firstn n l) <= find fh l)%nat.
  Proof.
    induction n as [|n IH]; intros fh l; [cbn; lia|]. destruct l as [|c l]; [cbn; lia|].
    cbn [firstn QuoteModel.find]. specialize (IH false l). destruct (_ && _); lia.
  Qed.

  Lemma find_pieces j : forall fh l, (j <= find fh l)%nat ->
    pieces fh l = single (firstn j l) ++ pieces (if (0 <? j)%nat then false else fh) (skipn j l).
  Proof.
    induction j as [|j IH]; intros fh l H; [reflexivity|].
    destruct l as [|c l]; [cbn in H; lia|]. cbn [QuoteModel.find] in H.
    destruct (negb (space c) && _) eqn:E in H; [|lia].
    assert (E' : render (c :: l) fh = Some ([c], false)).
    { cbn [QuoteModel.render].
      destruct (c =? quote); [destruct (space c); discriminate E|].
      destruct (c =? bslash); [destruct (space c); discriminate E|].
      destruct (print c); [|destruct (space c); discriminate E].
      destruct fh; [|reflexivity]. destruct (xdigit c); [|reflexivity].
      destruct (space c); discriminate E. }
    rewrite (pieces_cons _ _ _ _ _ _ _ _ _ _ E'). cbn [firstn skipn single map app].
    f_equal. rewrite (IH false l) by lia. replace (0 <? S j)%nat with true by lia.
    now destruct (0 <? j)%nat.
  Qed.
End Find.

Lemma skipn_cons {A} (l : list A) j : (j < length l)%nat -> exists c, skipn j l = c :: skipn (S j) l.
Proof.
  revert j. induction l as [|a l IH]; intros j H; cbn [length] in H; [lia|].
  destruct j as [|j]; [exists a; reflexivity|]. destruct (IH j ltac:(lia)) as [c E]. exists c. exact E.
Qed.

Lemma Forall_skipn {A} (P : A -> Prop) n l : Forall P l -> Forall P (skipn n l).
Proof.
  intros H. rewrite <- (firstn_skipn n l) in H. apply Forall_app in H. tauto.
Qed.

Lemma max_sizes max_size : max_size_2 max_size = max_size_1 max_size - 2 /\ max_size_3 max_size = max_size_1 max_size - 5 /\ 5 <= max_size_1 max_size /\
  max_size_1 max_size = Z.max 5 max_size.
Proof.
  unfold QuoteModel.max_size_3, QuoteModel.max_size_2, QuoteModel.max_size_1.
  destruct (max_size >=? 5) eqn:E; lia.
Qed.

Section Again2.
  Variables (W : Z) (C U : ity).
  Variables print xdigit space : Z -> bool.
  Variable quote : Z.
  Hypothesis HC : ity_ok C.
  Hypothesis HC8 : 8 <= iwidth C.
  Hypothesis HU : ity_ok U.
  Hypothesis HUu : isigned U = false.
  Hypothesis HW : iwidth C <= iwidth U.
  Hypothesis Hquote : quote = 34 \/ quote = 39.
  Hypothesis Hnl : print 10 = false.
  Variable max_size : Z.
  Notation render := (render C U print xdigit quote).
  Notation find := (find print xdigit space quote).
  Notation pieces := (pieces C U print xdigit quote).
  Notation again_2 := (again_2 W C U print xdigit space quote max_size).
  Notation render_more := (render_more C U print xdigit quote).
  Notation no_max_size := (no_max_size W max_size).
  Notation max_size_1 := (max_size_1 max_size).
  Notation max_size_2 := (max_size_2 max_size).
  Notation max_size_3 := (max_size_3 max_size).
  Notation form := (form quote).

  Lemma render_some c s fh : in_range C c ->
    exists p fh', render (c :: s) fh = Some (p, fh') /\ pieces fh (c :: s) = p :: pieces fh' s /\ p <> [].
  Proof.
    intros Hc.
    destruct (render_ok C U print xdigit quote HC8 HU HUu HW Hquote Hnl c s fh Hc)
      as (p & fh' & E & (Hp & _) & _).
    exists p, fh'. split; [exact E|]. split; [|exact Hp]. now apply pieces_cons.
  Qed.

  Lemma total_ge fh s : Forall (in_range C) s -> size s <= size (concat (pieces fh s)).
  Proof.
    intros H. revert fh. induction H as [|c s Hc Hs IH]; intros fh; [cbn; lia|].
    destruct (render_some c s fh Hc) as (p & fh' & _ & E & Hp). rewrite E. cbn [concat].
    rewrite size_app. apply size_cons_pos in Hp. specialize (IH fh'). unfold size in *. cbn [length]. lia.
  Qed.

  Lemma render_more_ok rest : forall c buffer n fh, Forall (in_range C) rest ->
    render_more (c :: rest) buffer n fh =
    Some (if size (buffer ++ concat (pieces fh rest)) <=? n
          then buffer ++ concat (pieces fh rest) ++ [quote] else dots ++ [quote]).
  Proof.
    induction rest as [|c' rest IH]; intros c buffer n fh Hr; cbn [QuoteModel.render_more].
    - cbn [pieces concat app]. rewrite app_nil_r. replace (size buffer <=? n) with (negb (size buffer >? n)) by lia.
      destruct (size buffer >? n); reflexivity.
    - inversion Hr as [|? ? Hc' Hr']; subst.
      destruct (render_some c' rest fh Hc') as (p & fh' & E & Ep & Hp).
      rewrite Ep. cbn [concat]. rewrite !size_app.
      pose proof (size_nonneg p). pose proof (size_nonneg (concat (pieces fh' rest))).
      destruct (size buffer >? n) eqn:E1.
      + replace (_ <=? n) with false by lia. reflexivity.
      + rewrite E. cbn [obind]. specialize (IH c' (buffer ++ p) n fh' Hr').
        cbn [QuoteModel.render_more] in IH. rewrite IH. rewrite !size_app.
        replace (size buffer + size p + size (concat (pieces fh' rest))) with
          (size buffer + (size p + size (concat (pieces fh' rest)))) by lia.
        now rewrite <- !app_assoc.
  Qed.

  (* one iteration that ends in an escape *)
  Lemma escape_ok fuel i_1 i_2 fh j
    (IH : forall i_1 i_2 fh, Forall (in_range C) i_1 -> (length i_1 < fuel)%nat -> i_2 <= max_size_3 ->
      (no_max_size = true -> i_2 + size (concat (pieces fh i_1)) <= max_size_3) ->
      again_2 fuel i_1 i_2 fh = Some (form (max_size_2 - i_2) (pieces fh i_1))) :
    Forall (in_range C) i_1 -> (length i_1 < S fuel)%nat -> i_2 <= max_size_3 ->
    (no_max_size = true -> i_2 + size (concat (pieces fh i_1)) <= max_size_3) ->
    (j <= find fh i_1)%nat -> (j < length i_1)%nat ->
    (no_max_size = false -> Z.of_nat j < max_size_3 - i_2) ->
    (let? (buffer, follows_hex) := render (skipn j i_1) (if (0 <? j)%nat then false else fh) in
     if no_max_size || (size buffer <=? max_size_3 - i_2 - Z.of_nat j) then
       let? rest := again_2 fuel (tl (skipn j i_1)) (i_2 + Z.of_nat j + size buffer) follows_hex in
       Some (firstn j i_1 ++ buffer ++ rest)
     else
       let? rest := render_more (skipn j i_1) buffer (max_size_2 - i_2 - Z.of_nat j) follows_hex in
       Some (firstn j i_1 ++ rest)) = Some (form (max_size_2 - i_2) (pieces fh i_1)).
  Proof.
    intros Hr Hf Hi2 Hno Hj Hjl Hj3.
    destruct (max_sizes max_size) as (M2 & M3 & M5 & _).
    rewrite (find_pieces C U print xdigit space quote j fh i_1 Hj) in *. set (fh0 := if (0 <? j)%nat then false else fh) in *. clearbody fh0.
    destruct (skipn_cons i_1 j Hjl) as [c Ec]. rewrite Ec.
    assert (Hr2 := Forall_skipn _ j _ Hr). rewrite Ec in Hr2. inversion Hr2 as [|? ? Hc Hr3]; subst.
    destruct (render_some c (skipn (S j) i_1) fh0 Hc) as (p & fh' & E & Ep & Hp).
    rewrite E. cbn [obind tl]. rewrite Ec in Hno. rewrite Ep in *.
    assert (Hsj : size (firstn j i_1) = Z.of_nat j) by (unfold size; rewrite firstn_length; lia).
    rewrite concat_app, concat_single, size_app, Hsj in Hno. cbn [concat] in Hno. rewrite size_app in Hno.
    pose proof (size_cons_pos _ Hp). pose proof (size_nonneg (concat (pieces fh' (skipn (S j) i_1)))).
    assert (Hj3' : Z.of_nat j <= max_size_3 - i_2).
    { destruct no_max_size eqn:En; [specialize (Hno eq_refl); lia|specialize (Hj3 eq_refl); lia]. }
    rewrite form_app by (rewrite concat_single, Hsj; lia). rewrite concat_single, Hsj.
    destruct (no_max_size || _) eqn:E2.
    - assert (Hfit : Z.of_nat j + size p <= max_size_3 - i_2).
      { destruct no_max_size eqn:En; [specialize (Hno eq_refl); lia|cbn in E2; lia]. }
      rewrite IH.
      + cbn [obind]. change (p :: ?x) with ([p] ++ x). rewrite form_app by (cbn [concat]; rewrite app_nil_r; lia).
        cbn [concat]. rewrite app_nil_r. do 4 f_equal. lia.
      + assumption.
      + rewrite skipn_length. lia.
      + lia.
      + intros En. specialize (Hno En). lia.
    - rewrite render_more_ok by assumption. cbn [obind].
      assert (no_max_size = false) as En by (now destruct no_max_size).
      rewrite form_stop by lia. cbn [concat]. rewrite <- app_assoc. reflexivity.
  Qed.

  Lemma again_2_ok fuel : forall i_1 i_2 fh,
    Forall (in_range C) i_1 -> (length i_1 < fuel)%nat -> i_2 <= max_size_3 ->
    (no_max_size = true -> i_2 + size (concat (pieces fh i_1)) <= max_size_3) ->
    again_2 fuel i_1 i_2 fh = Some (form (max_size_2 - i_2) (pieces fh i_1)).
  Proof.
    induction fuel as [|fuel IH]; intros i_1 i_2 fh Hr Hf Hi2 Hno; [lia|].
    destruct (max_sizes max_size) as (M2 & M3 & M5 & _).
    cbn [QuoteModel.again_2].
    replace (negb (no_max_size || (i_2 <=? max_size_2))) with false
      by (replace (i_2 <=? max_size_2) with true by lia; now rewrite orb_true_r).
    replace (negb (i_2 <=? max_size_3)) with false by lia.
    pose proof (find_length print xdigit space quote fh i_1) as Hfl. pose proof (total_ge fh i_1 Hr) as Htot.
    destruct (no_max_size || (size i_1 <=? max_size_2 - i_2)) eqn:E1.
    - destruct (find fh i_1 =? length i_1)%nat eqn:E2.
      + (* no escape is needed *)
        assert (Ep : pieces fh i_1 = single i_1).
        { rewrite (find_pieces C U print xdigit space quote (length i_1) fh i_1) by lia. rewrite skipn_all, firstn_all. cbn [QuoteProofs.pieces]. apply app_nil_r. }
        rewrite Ep in *. rewrite concat_single in *. unfold form. rewrite concat_single.
        replace (size i_1 <=? max_size_2 - i_2) with true; [reflexivity|].
        destruct no_max_size; [specialize (Hno eq_refl); lia|cbn in E1; lia].
      + destruct (no_max_size || (Z.of_nat (find fh i_1) <? max_size_3 - i_2)) eqn:E3.
        * apply (escape_ok fuel i_1 i_2 fh (find fh i_1) IH); try assumption; try lia.
        * assert (no_max_size = false) as En by (now destruct no_max_size). rewrite En in *. cbn in E1, E3.
          set (j := Z.to_nat (max_size_3 - i_2)) in *.
          assert (Hj : Z.of_nat j = max_size_3 - i_2) by (unfold j; lia). clearbody j.
          rewrite (find_pieces C U print xdigit space quote j fh i_1) by lia.
          set (fh0 := if (0 <? j)%nat then false else fh). clearbody fh0.
          destruct (skipn_cons i_1 j ltac:(lia)) as [c Ec]. rewrite Ec.
          assert (Hr2 := Forall_skipn _ j _ Hr). rewrite Ec in Hr2. inversion Hr2 as [|? ? Hc Hr3]; subst.
          destruct (render_some c (skipn (S j) i_1) fh0 Hc) as (p & fh' & E & Ep & Hp).
          rewrite E. cbn [obind]. rewrite render_more_ok by assumption. cbn [obind]. rewrite Ep.
          assert (Hsj : size (firstn j i_1) = Z.of_nat j) by (unfold size; rewrite firstn_length; lia).
          rewrite form_app by (rewrite concat_single, Hsj; lia). rewrite concat_single, Hsj.
          pose proof (size_cons_pos _ Hp).
          rewrite form_stop by lia. cbn [concat]. rewrite <- app_assoc. reflexivity.
    - assert (no_max_size = false) as En by (now destruct no_max_size). rewrite En in *. cbn in E1.
      set (m := Z.to_nat (max_size_3 - i_2)) in *.
      assert (Hm : Z.of_nat m = max_size_3 - i_2) by (unfold m; lia). clearbody m.
      pose proof (find_firstn print xdigit space quote m fh i_1) as Hff. pose proof (find_length print xdigit space quote fh (firstn m i_1)) as Hffl.
      rewrite firstn_length in Hffl.
      assert (Hml : (m < length i_1)%nat) by (unfold size in E1; lia).
      destruct (find fh (firstn m i_1) =? m)%nat eqn:E2.
      + replace (find fh (firstn m i_1)) with m in * by lia.
        rewrite (find_pieces C U print xdigit space quote m fh i_1) by lia.
        set (fh0 := if (0 <? m)%nat then false else fh). clearbody fh0.
        destruct (skipn_cons i_1 m ltac:(lia)) as [c Ec]. rewrite Ec.
        assert (Hr2 := Forall_skipn _ m _ Hr). rewrite Ec in Hr2. inversion Hr2 as [|? ? Hc Hr3]; subst.
        destruct (render_some c (skipn (S m) i_1) fh0 Hc) as (p & fh' & E & Ep & Hp).
        rewrite Ep.
        assert (Hsj : size (firstn m i_1) = Z.of_nat m) by (unfold size; rewrite firstn_length; lia).
        rewrite form_app by (rewrite concat_single, Hsj; lia). rewrite concat_single, Hsj.
        pose proof (size_cons_pos _ Hp).
        rewrite form_stop by lia.
        pose proof (total_ge fh' (skipn (S m) i_1) Hr3) as Ht3.
        assert (Hl3 : size (skipn (S m) i_1) = size i_1 - Z.of_nat m - 1) by (unfold size in *; rewrite skipn_length; lia).
        cbn [concat]. rewrite size_app. replace (_ <=? _) with false by lia. reflexivity.
      + replace (no_max_size) with false in IH by congruence.
        pose proof (escape_ok fuel i_1 i_2 fh (find fh (firstn m i_1))) as HE. rewrite En in HE. cbn [orb] in HE.
        apply HE; try assumption; try lia.
  Qed.

  Lemma quoted_ok s : Forall (in_range C) s -> 
    (no_max_size = true -> size (concat (pieces false s)) <= max_size_3) ->
    quoted W C U print xdigit space quote max_size s = Some (quote :: form (max_size_1 - 2) (pieces false s)).
  Proof.
    intros Hr Hno. destruct (max_sizes max_size) as (M2 & M3 & M5 & _). unfold quoted.
    rewrite again_2_ok; [cbn [obind]; now rewrite M2, Z.sub_0_r|assumption|lia|lia|].
    intros En. specialize (Hno En). lia.
  Qed.
End Again2.
