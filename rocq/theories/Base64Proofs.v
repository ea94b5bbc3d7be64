(* Lemmas about the model of base64: the encoder. *)
From Coq Require Import ZArith List Bool Arith Lia ZifyBool.
From Verif Require Import CInt IntModel IntProofs IntProofs4 BufferModel ArrLib Base64Model Base64Spec.
Import ListNotations.
Open Scope nat_scope.

Definition chars_of (url : bool) : list Z := if url then base64url_chars else base64_chars.

Lemma chars_alphabet url v : (0 <= v < 64)%Z -> nth_error (chars_of url) (Z.to_nat v) = Some (alphabet url v).
Proof.
  intros Hv.
  assert (H : forallb (fun i => match nth_error (chars_of url) i with Some c => (c =? alphabet url (Z.of_nat i))%Z | None => false end) (seq 0 64) = true)
    by (destruct url; vm_compute; reflexivity).
  rewrite forallb_forall in H. specialize (H (Z.to_nat v)). rewrite in_seq in H.
  destruct (nth_error _ _) as [c|]; [|discriminate H; lia].
  rewrite Z2Nat.id in H by lia. f_equal. apply Z.eqb_eq. apply H. lia.
Qed.

Lemma sextet_of batch k : (0 <= k)%Z -> Z.land (Z.shiftr batch k) 63 = (batch / 2 ^ k mod 64)%Z.
Proof. intros Hk. change 63%Z with (Z.ones 6). rewrite Z.land_ones, Z.shiftr_div_pow2 by lia. reflexivity. Qed.

Lemma byte_of batch k : (0 <= k)%Z -> Z.land (Z.shiftr batch k) 255 = (batch / 2 ^ k mod 256)%Z.
Proof. intros Hk. change 255%Z with (Z.ones 8). rewrite Z.land_ones, Z.shiftr_div_pow2 by lia. reflexivity. Qed.

Lemma lor_add a b w : (0 <= w)%Z -> (0 <= b < 2 ^ w)%Z -> Z.lor (a * 2 ^ w) b = (a * 2 ^ w + b)%Z.
Proof. intros Hw Hb. now apply lor_disjoint_add. Qed.

Lemma batch3 a b c : is_byte a -> is_byte b -> is_byte c ->
  Z.lor (Z.lor (Z.lor 0 (Z.shiftl a 16)) (Z.shiftl b 8)) (Z.shiftl c 0) = (a * 65536 + b * 256 + c)%Z.
Proof.
  unfold is_byte. intros Ha Hb Hc. rewrite Z.lor_0_l, !Z.shiftl_mul_pow2, Z.mul_1_r by lia.
  rewrite (lor_add a (b * 2 ^ 8) 16) by lia.
  replace (a * 2 ^ 16 + b * 2 ^ 8)%Z with ((a * 2 ^ 8 + b) * 2 ^ 8)%Z by lia.

  rewrite lor_add by lia. lia.
Qed.

Lemma batch2 a b : is_byte a -> is_byte b ->
  Z.lor (Z.shiftl a 16) (Z.shiftl b 8) = (a * 65536 + b * 256)%Z.
Proof.
  unfold is_byte. intros Ha Hb. rewrite !Z.shiftl_mul_pow2 by lia.
  rewrite (lor_add a (b * 2 ^ 8) 16) by lia. lia.
Qed.

Ltac Zdm := Z.div_mod_to_equations; lia.

Lemma sextets3 a b c : is_byte a -> is_byte b -> is_byte c ->
  let batch := (a * 65536 + b * 256 + c)%Z in
  (batch / 2 ^ 18 mod 64 = a / 4 /\ batch / 2 ^ 12 mod 64 = (a mod 4) * 16 + b / 16 /\
  batch / 2 ^ 6 mod 64 = (b mod 16) * 4 + c / 64 /\ batch / 2 ^ 0 mod 64 = c mod 64)%Z.
Proof.
  unfold is_byte. cbv zeta. intros Ha Hb Hc.
  change (2 ^ 18)%Z with 262144%Z. change (2 ^ 12)%Z with 4096%Z. change (2 ^ 6)%Z with 64%Z. change (2 ^ 0)%Z with 1%Z.
  repeat split; Zdm.
Qed.

Lemma sextets_bound bytes : Forall is_byte bytes -> Forall (fun v => 0 <= v < 64)%Z (sextets bytes).
Proof.
  assert (G : forall n bytes, length bytes <= n -> Forall is_byte bytes -> Forall (fun v => 0 <= v < 64)%Z (sextets bytes)).
  { clear. induction n as [|n IH]; intros bytes Hl Hb; [destruct bytes; [constructor|cbn in Hl; lia]|].
    destruct bytes as [|a [|b [|c r]]]; cbn [sextets].
    - constructor.
    - inversion Hb as [|? ? Ha _]; subst. unfold is_byte in Ha. repeat constructor; Zdm.
    - inversion Hb as [|? ? Ha Hb']; subst. inversion Hb' as [|? ? Hbb _]; subst. unfold is_byte in *. repeat constructor; Zdm.
    - inversion Hb as [|? ? Ha Hb']; subst. inversion Hb' as [|? ? Hbb Hc']; subst. inversion Hc' as [|? ? Hc Hr]; subst.
      unfold is_byte in *. do 4 (constructor; [Zdm|]). apply IH; [cbn in Hl; lia|exact Hr]. }
  exact (G (length bytes) bytes (Nat.le_refl _)).
Qed.

Section Encoder.
Context (cfg : econfig).

Definition body (bytes : list Z) : list Z := text (e_url cfg) (e_pad cfg) bytes.

Lemma body3 a b c bytes : body (a :: b :: c :: bytes) =
  alphabet (e_url cfg) (a / 4) :: alphabet (e_url cfg) (a mod 4 * 16 + b / 16) ::
  alphabet (e_url cfg) (b mod 16 * 4 + c / 64) :: alphabet (e_url cfg) (c mod 64) :: body bytes.
Proof.
  unfold body, text. cbn [sextets map app]. do 4 f_equal. f_equal. unfold padding_size.
  replace (length (a :: b :: c :: bytes) mod 3) with (length bytes mod 3); [reflexivity|].
  cbn [length]. replace (S (S (S (length bytes)))) with (length bytes + 1 * 3) by lia.
  now rewrite Nat.mod_add.
Qed.

Definition to_lines (k : nat) (cs : list Z) : list Z :=
  if e_line cfg =? 0 then cs
  else if k =? e_line cfg then 10%Z :: lines_from (e_line cfg) 0 cs else lines_from (e_line cfg) k cs.

(* The text that is still to be produced in the given state if the given bytes are still
   to come *)
Definition erest (st : enc) (bytes : list Z) : list Z :=
  if en_out st then to_lines (en_line st) (skipn (4 - en_size st) (en_hold st) ++ body bytes)
  else to_lines (en_line st) (body (firstn (en_size st) (en_hold st) ++ bytes)).

Definition hold_ok (st : enc) : Prop :=
  exists h0 h1 h2 h3, en_hold st = [h0; h1; h2; h3] /\
    (en_out st = false -> Forall is_byte (firstn (en_size st) [h0; h1; h2; h3])).

Definition egood (lab : elabel) (st : enc) (data : list Z) (eoi : bool) : Prop :=
  hold_ok st /\
  match lab with
  | EInput => en_out st = false /\ en_size st <= 2 /\ (e_line cfg = 0 \/ en_line st < e_line cfg)
  | EBatch => en_out st = false /\ en_size st = 3 /\ (e_line cfg = 0 \/ en_line st < e_line cfg)
  | EOutput => en_out st = true /\ en_size st <= 4 /\
      (e_line cfg = 0 /\ 0 < en_size st \/ en_line st <= e_line cfg /\ (en_size st = 0 -> en_line st = e_line cfg /\ 0 < e_line cfg))
  | EPartial => en_out st = false /\ (en_size st = 1 \/ en_size st = 2) /\ (e_line cfg = 0 \/ en_line st < e_line cfg) /\
      data = [] /\ eoi = true
  | EFinalize => en_out st = false /\ en_size st = 0 /\ (e_line cfg = 0 \/ en_line st < e_line cfg) /\
      data = [] /\ eoi = true
  end.

(* states between calls *)
Definition eready (st : enc) : Prop := egood (if en_out st then EOutput else EInput) st [] true.

Definition erank (lab : elabel) : nat := match lab with EInput => 2 | EBatch | EPartial => 1 | _ => 0 end.

Definition epost (st : enc) (data : list Z) (eoi : bool) (room : nat) (r : option (call_result enc)) : Prop :=
  exists b st' data' out, r = Some (b, st', data', out) /\ eready st' /\ length out <= room /\
    (exists used, data = used ++ data') /\
    (forall future, (eoi = true -> future = []) ->
       erest st (data ++ future) = out ++ (if b then [] else erest st' (data' ++ future))) /\
    (b = true -> eoi = true /\ data' = []) /\
    (b = false -> length out = room /\ (forall future, (eoi = true -> future = []) -> erest st' (data' ++ future) <> []) \/
       eoi = false /\ data' = []).

Lemma epost_emit c st st2 data eoi room r : 
  (forall bytes, erest st bytes = c :: erest st2 bytes) ->
  epost st2 data eoi room r -> epost st data eoi (S room) (emit c r).
Proof.
  intros He (b & st' & data' & out & -> & H1 & H2 & H3 & H4 & H5 & H6).
  exists b, st', data', (c :: out). split; [reflexivity|]. split; [exact H1|]. split; [cbn; lia|]. split; [exact H3|].
  split; [|split; [exact H5|]].
  - intros future Hf. rewrite He, H4 by exact Hf. reflexivity.
  - intros Hb. destruct (H6 Hb) as [H|H]; [left; cbn [length]; split; [lia|apply H]|right; exact H].
Qed.

Lemma epost_same st st2 data data2 eoi room r :
  (forall future, (eoi = true -> future = []) -> erest st (data ++ future) = erest st2 (data2 ++ future)) ->
  (exists u, data = u ++ data2) ->
  epost st2 data2 eoi room r -> epost st data eoi room r.
Proof.
  intros He (u & Hu) (b & st' & data' & out & -> & H1 & H2 & (v & H3) & H4 & H5 & H6).
  exists b, st', data', out. split; [reflexivity|]. split; [exact H1|]. split; [exact H2|].
  split; [exists (u ++ v); now rewrite <- app_assoc, <- H3|]. split; [|auto].
  intros future Hf. rewrite He, H4 by exact Hf. reflexivity.
Qed.

Lemma epost_stop st eoi data room : eready st ->
  (room = 0 /\ (forall future, (eoi = true -> future = []) -> erest st (data ++ future) <> []) \/ eoi = false /\ data = []) ->
  epost st data eoi room (Some (false, st, data, [])).
Proof.
  intros Hr H. exists false, st, data, []. split; [reflexivity|]. split; [exact Hr|]. split; [cbn; lia|].
  split; [now exists []|]. split; [reflexivity|]. split; [discriminate|]. intros _. cbn [length].
  destruct H as [[H1 H2]|H]; auto.
Qed.

Lemma erest_output h0 h1 h2 h3 sz line bytes : sz <= 4 ->
  (e_line cfg = 0 /\ 0 < sz \/ line <= e_line cfg /\ (sz = 0 -> line = e_line cfg /\ 0 < e_line cfg)) ->
  erest (Enc true sz [h0; h1; h2; h3] line) bytes <> [].
Proof.
  intros Hs H. unfold erest, to_lines. cbn [en_out en_size en_hold en_line].
  assert (Hn : 0 < sz -> skipn (4 - sz) [h0; h1; h2; h3] ++ body bytes <> []).
  { intros Hp E. apply (f_equal (@length Z)) in E. rewrite app_length, skipn_length in E. cbn [length] in E. lia. }
  destruct (Nat.eqb_spec (e_line cfg) 0) as [E0|E0]; [apply Hn; lia|].
  destruct (Nat.eqb_spec line (e_line cfg)) as [E1|E1]; [discriminate|].
  destruct (skipn (4 - sz) [h0; h1; h2; h3] ++ body bytes); [exfalso; apply Hn; [lia|reflexivity]|discriminate].
Qed.

Lemma enc_loop_ok fuel : forall lab st data eoi room,
  egood lab st data eoi -> Forall is_byte data -> 4 * (length data + room) + erank lab < fuel ->
  epost st data eoi room (enc_loop cfg fuel lab st data eoi room).
Proof.
  induction fuel as [|fuel IH]; intros lab st data eoi room Hg Hd Hf; [lia|].
  destruct st as [o sz hold line]. destruct Hg as ((h0 & h1 & h2 & h3 & Eh & Hh) & Hg). cbn [en_hold en_out en_size en_line] in *. subst hold.
  destruct lab; cbn [erank] in Hf; cbn [enc_loop en_out en_size en_hold en_line].
  - (* EInput *)
    destruct Hg as (-> & Hs & Hl). destruct data as [|ch data].
    + destruct eoi; cbn [negb].
      * destruct (Nat.ltb_spec 0 sz).
        -- apply IH; [|constructor|cbn [erank length] in *; lia].
           split; [exists h0, h1, h2, h3; auto|]. cbn [en_out en_size en_line]. repeat split; auto; lia.
        -- apply IH; [|constructor|cbn [erank length] in *; lia].
           split; [exists h0, h1, h2, h3; auto|]. cbn [en_out en_size en_line]. repeat split; auto; lia.
      * apply epost_stop; [|auto]. split; [exists h0, h1, h2, h3; auto|]. cbn [en_out en_size en_line]. auto.
    + inversion Hd as [|? ? Hch Hd']; subst. replace (ch <=? 255)%Z with true by (unfold is_byte in Hch; lia).
      cbn [length] in Hf. specialize (Hh eq_refl).
      destruct sz as [|[|[|sz]]]; [| | |lia]; cbn [set_nth obind Nat.add en_size Nat.ltb Nat.leb];
        (eapply (epost_same _ _ (ch :: data) data);
         [|now exists [ch]|apply IH; [|exact Hd'|cbn [erank]; lia]]).
      * intros future _. reflexivity.
      * split; [exists ch, h1, h2, h3; split; [reflexivity|intros _; repeat constructor; apply Hch]|].
        cbn [en_out en_size en_line]. auto.
      * intros future _. reflexivity.
      * split; [exists h0, ch, h2, h3; split; [reflexivity|intros _]|cbn [en_out en_size en_line]; auto].
        cbn [firstn en_size] in *. inversion Hh; subst. repeat constructor; try apply Hch; apply H1.
      * intros future _. reflexivity.
      * split; [exists h0, h1, ch, h3; split; [reflexivity|intros _]|cbn [en_out en_size en_line]; auto].
        cbn [firstn en_size] in *. inversion Hh; subst. inversion H2; subst.
        constructor; [exact H1|]. constructor; [exact H3|]. constructor; [exact Hch|constructor].
  - (* EBatch *)
    destruct Hg as (-> & -> & Hl). specialize (Hh eq_refl). cbn [firstn] in Hh.
    inversion Hh as [|? ? B0 Hh1]; subst. inversion Hh1 as [|? ? B1 Hh2]; subst. inversion Hh2 as [|? ? B2 _]; subst.
    cbn [orb negb Nat.eqb gather nth_error obind Nat.sub Nat.mul Nat.add Z.of_nat].
    change (Z.of_nat 16) with 16%Z. change (Z.of_nat 8) with 8%Z. cbn [Pos.of_succ_nat Pos.succ].
    rewrite batch3 by assumption. destruct (sextets3 h0 h1 h2 B0 B1 B2) as (E0 & E1 & E2 & E3).
    set (batch := (h0 * 65536 + h1 * 256 + h2)%Z) in *.
    fold (chars_of (e_url cfg)).
    cbn [scatter Nat.sub Nat.mul Nat.add Z.of_nat Pos.of_succ_nat Pos.succ].
    rewrite !sextet_of by lia. rewrite E0, E1, E2, E3. unfold is_byte in *.
    rewrite !chars_alphabet by Zdm.
    cbn [obind set_nth].
    eapply (epost_same _ _ data data); [|now exists []|apply IH; [|exact Hd|cbn [erank]; lia]].
    + intros future _. unfold erest. cbn [en_out en_size en_hold en_line firstn skipn Nat.sub app].
      now rewrite body3.
    + split; [do 4 eexists; split; [reflexivity|discriminate]|]. cbn [en_out en_size en_line]. split; [reflexivity|]. split; [lia|].
      destruct Hl; [left; lia|right; lia].
  - (* EOutput *)
    destruct Hg as (-> & Hs & Hl). cbn [negb].
    destruct room as [|room].
    { apply epost_stop; [|left; split; [reflexivity|intros; now apply erest_output]]. split; [exists h0, h1, h2, h3; split; [reflexivity|discriminate]|]. cbn [en_out en_size en_line]. auto. }
    destruct ((e_line cfg =? 0) || (line <? e_line cfg)) eqn:Eline.
    + assert (0 < sz) by lia. replace (0 <? sz) with true by lia. cbn [negb].
      assert (Hn : exists c, nth_error [h0; h1; h2; h3] (4 - sz) = Some c /\
                     skipn (4 - sz) [h0; h1; h2; h3] = c :: skipn (4 - (sz - 1)) [h0; h1; h2; h3]).
      { destruct sz as [|[|[|[|[|sz]]]]]; [lia| | | | |lia]; cbn [Nat.sub nth_error skipn]; eexists; split; reflexivity. }
      destruct Hn as (c & -> & Hskip). cbn [obind].
      destruct (Nat.eqb_spec (e_line cfg) 0) as [E0|E0].
      * destruct (Nat.ltb_spec 0 (sz - 1)).
        -- eapply epost_emit; [|apply IH; [|exact Hd|cbn [erank] in *; lia]].
           ++ intros bytes. unfold erest, to_lines. cbn [en_out en_size en_hold en_line]. rewrite Hskip.
              rewrite E0. reflexivity.
           ++ split; [exists h0, h1, h2, h3; split; [reflexivity|discriminate]|]. cbn [en_out en_size en_line].
              split; [reflexivity|]. split; [lia|]. left. lia.
        -- replace (sz - 1) with 0 in * by lia.
           eapply epost_emit; [|apply IH; [|exact Hd|cbn [erank] in *; lia]].
           ++ intros bytes. unfold erest, to_lines. cbn [en_out en_size en_hold en_line]. rewrite Hskip.
              rewrite E0. reflexivity.
           ++ split; [exists h0, h1, h2, h3; split; [reflexivity|intros _; constructor]|]. cbn [en_out en_size en_line].
              split; [reflexivity|]. split; [lia|]. now left.
      * assert (Hlt : line < e_line cfg) by lia.
        destruct ((0 <? sz - 1) || (line + 1 =? e_line cfg)) eqn:Eb.
        -- eapply epost_emit; [|apply IH; [|exact Hd|cbn [erank] in *; lia]].
           ++ intros bytes. unfold erest, to_lines. cbn [en_out en_size en_hold en_line]. rewrite Hskip.
              replace (e_line cfg =? 0) with false by lia. replace (line =? e_line cfg) with false by lia.
              cbn [app lines_from]. reflexivity.
           ++ split; [exists h0, h1, h2, h3; split; [reflexivity|discriminate]|]. cbn [en_out en_size en_line].
              split; [reflexivity|]. split; [lia|]. right. lia.
        -- replace (sz - 1) with 0 in * by lia.
           eapply epost_emit; [|apply IH; [|exact Hd|cbn [erank] in *; lia]].
           ++ intros bytes. unfold erest, to_lines. cbn [en_out en_size en_hold en_line]. rewrite Hskip.
              replace (e_line cfg =? 0) with false by lia. replace (line =? e_line cfg) with false by lia.
              replace (line + 1 =? e_line cfg) with false by lia.
              cbn [app lines_from skipn Nat.sub firstn]. replace (line + 1 =? e_line cfg) with false by lia. reflexivity.
           ++ split; [exists h0, h1, h2, h3; split; [reflexivity|intros _; constructor]|]. cbn [en_out en_size en_line].
              split; [reflexivity|]. split; [lia|]. right. lia.
    + assert (line = e_line cfg /\ 0 < e_line cfg) as [-> Hpos] by lia.
      destruct (Nat.ltb_spec 0 sz).
      * eapply epost_emit; [|apply IH; [|exact Hd|cbn [erank] in *; lia]].
        ++ intros bytes. unfold erest, to_lines. cbn [en_out en_size en_hold en_line].
           replace (e_line cfg =? 0) with false by lia. replace (e_line cfg =? e_line cfg) with true by lia.
           replace (0 =? e_line cfg) with false by lia. reflexivity.
        ++ split; [exists h0, h1, h2, h3; split; [reflexivity|discriminate]|]. cbn [en_out en_size en_line].
           split; [reflexivity|]. split; [lia|]. right. lia.
      * replace sz with 0 in * by lia.
        eapply epost_emit; [|apply IH; [|exact Hd|cbn [erank] in *; lia]].
        ++ intros bytes. unfold erest, to_lines. cbn [en_out en_size en_hold en_line].
           replace (e_line cfg =? 0) with false by lia. replace (e_line cfg =? e_line cfg) with true by lia.
           replace (0 =? e_line cfg) with false by lia. reflexivity.
        ++ split; [exists h0, h1, h2, h3; split; [reflexivity|intros _; constructor]|]. cbn [en_out en_size en_line].
           split; [reflexivity|]. split; [lia|]. right. lia.
  - (* EPartial *)
    destruct Hg as (-> & Hs & Hl & -> & ->). specialize (Hh eq_refl). fold (chars_of (e_url cfg)).
    destruct Hs as [-> | ->].
    + cbn [firstn] in Hh. inversion Hh as [|? ? B0 _]; subst. pose proof B0 as B0'. unfold is_byte in B0'.
      cbn [orb negb Nat.eqb nth_error obind Nat.ltb Nat.leb fst snd Nat.sub].
      assert (Eb : Z.shiftl h0 (2 * 8) = (h0 * 65536 + 0 * 256 + 0)%Z) by (rewrite Z.shiftl_mul_pow2 by lia; lia). rewrite Eb.
      destruct (sextets3 h0 0 0 B0 ltac:(unfold is_byte; lia) ltac:(unfold is_byte; lia)) as (E0 & E1 & _). change (0 / 16)%Z with 0%Z in E1. rewrite (Z.add_0_r (_ * 16)) in E1.
      destruct (e_pad cfg) eqn:Epad; cbn [negb scatter Nat.sub Nat.mul Nat.add Z.of_nat Pos.of_succ_nat Pos.succ];
        rewrite !sextet_of by lia; rewrite E0, E1; rewrite !chars_alphabet by Zdm; cbn [obind set_nth];
        (eapply (epost_same _ _ [] []); [|now exists []|apply IH; [|exact Hd|cbn [erank]; lia]]).
      all: try (split; [do 4 eexists; split; [reflexivity|discriminate]|]; cbn [en_out en_size en_line];
                split; [reflexivity|]; split; [lia|]; destruct Hl; [left; lia|right; lia]).
      all: intros future Hf'; rewrite (Hf' eq_refl); unfold erest, body, text; rewrite Epad;
        cbn [en_out en_size en_hold en_line firstn skipn Nat.sub app sextets map padding_size length repeat Nat.modulo Nat.divmod snd];
        reflexivity.
    + cbn [firstn] in Hh. inversion Hh as [|? ? B0 Hh1]; subst. inversion Hh1 as [|? ? B1 _]; subst.
      pose proof B0 as B0'. pose proof B1 as B1'. unfold is_byte in B0', B1'.
      cbn [orb negb Nat.eqb nth_error obind Nat.ltb Nat.leb fst snd Nat.sub].
      change (2 * 8)%Z with 16%Z. change (1 * 8)%Z with 8%Z.
      rewrite batch2 by assumption. replace (h0 * 65536 + h1 * 256)%Z with (h0 * 65536 + h1 * 256 + 0)%Z by lia.
      destruct (sextets3 h0 h1 0 B0 B1 ltac:(unfold is_byte; lia)) as (E0 & E1 & E2 & _). change (0 / 64)%Z with 0%Z in E2. rewrite (Z.add_0_r (_ * 4)) in E2.
      destruct (e_pad cfg) eqn:Epad; cbn [negb scatter Nat.sub Nat.mul Nat.add Z.of_nat Pos.of_succ_nat Pos.succ];
        rewrite !sextet_of by lia; rewrite E0, E1, E2; rewrite !chars_alphabet by Zdm; cbn [obind set_nth];
        (eapply (epost_same _ _ [] []); [|now exists []|apply IH; [|exact Hd|cbn [erank]; lia]]).
      all: try (split; [do 4 eexists; split; [reflexivity|discriminate]|]; cbn [en_out en_size en_line];
                split; [reflexivity|]; split; [lia|]; destruct Hl; [left; lia|right; lia]).
      all: intros future Hf'; rewrite (Hf' eq_refl); unfold erest, body, text; rewrite Epad;
        cbn [en_out en_size en_hold en_line firstn skipn Nat.sub app sextets map padding_size length repeat Nat.modulo Nat.divmod snd];
        reflexivity.
  - (* EFinalize *)
    destruct Hg as (-> & -> & Hl & -> & ->).
    assert (Hr : eready (Enc false 0 [h0; h1; h2; h3] line)).
    { split; [exists h0, h1, h2, h3; split; [reflexivity|intros _; constructor]|]. cbn [en_out en_size en_line]. auto. }
    destruct ((e_line cfg =? 0) || (line =? 0)) eqn:Ef.
    + exists true, (Enc false 0 [h0; h1; h2; h3] line), [], []. split; [reflexivity|]. split; [exact Hr|].
      split; [cbn; lia|]. split; [now exists []|]. split; [|split; [auto|discriminate]].
      intros future Hf'. rewrite (Hf' eq_refl). unfold erest, to_lines. cbn [en_out en_size en_hold en_line firstn app body text sextets map padding_size].
      unfold body, text. cbn. destruct (e_pad cfg); cbn; destruct (Nat.eqb_spec (e_line cfg) 0); try reflexivity;
        (replace (line =? e_line cfg) with false by lia; cbn [lines_from]; now replace (line =? 0) with true by lia).
    + assert (En : erest (Enc false 0 [h0; h1; h2; h3] line) [] = [10%Z]).
      { unfold erest, to_lines, body, text. cbn [en_out en_size en_hold en_line firstn app].
        cbn. destruct (e_pad cfg); cbn; replace (e_line cfg =? 0) with false by lia;
          (replace (line =? e_line cfg) with false by lia; cbn [lines_from]; now replace (line =? 0) with false by lia). }
      destruct room as [|room].
      { apply epost_stop; [exact Hr|left; split; [reflexivity|]]. intros future Hf'. rewrite (Hf' eq_refl). cbn [app]. now rewrite En. }
      exists true, (Enc false 0 [h0; h1; h2; h3] line), [], [10%Z]. split; [reflexivity|]. split; [exact Hr|].
      split; [cbn; lia|]. split; [now exists []|]. split; [|split; [auto|discriminate]].
      intros future Hf'. rewrite (Hf' eq_refl). exact En.
Qed.

Lemma encode_call_ok st data eoi room : eready st -> Forall is_byte data ->
  epost st data eoi room (encode_call cfg st data eoi room).
Proof.
  intros Hr Hd. unfold encode_call.
  assert (E : en_out st || (en_size st <? 3) = true).
  { destruct Hr as (_ & Hr). destruct (en_out st); [reflexivity|]. cbn [orb]. destruct Hr as (_ & Hs & _). lia. }
  rewrite E. cbn [negb]. apply enc_loop_ok; [|exact Hd|destruct (en_out st); cbn [erank]; lia].
  destruct st as [[|] sz hold line]; destruct Hr as (H1 & H2); split; [exact H1|exact H2|exact H1|exact H2].
Qed.

Lemma eready_init : eready enc_init.
Proof.
  split; [exists 0%Z, 0%Z, 0%Z, 0%Z; split; [reflexivity|intros _; constructor]|].
  cbn [en_out enc_init en_size en_line]. split; [reflexivity|]. split; [lia|]. lia.
Qed.

End Encoder.
