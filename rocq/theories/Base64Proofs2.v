(* Lemmas about the model of base64: the decoder. *)
From Coq Require Import ZArith List Bool Arith Lia ZifyBool.
From Verif Require Import CInt IntModel IntProofs IntProofs4 BufferModel ArrLib Base64Model Base64Spec Base64Proofs.
Import ListNotations.
Open Scope nat_scope.

Definition sextet (v : Z) : Prop := (0 <= v < 64)%Z.

Lemma alphabet_inj url u v : sextet u -> sextet v -> alphabet url u = alphabet url v -> u = v.
Proof. unfold sextet, alphabet. intros Hu Hv E. destruct url; repeat match type of E with context [if ?b then _ else _] => destruct b eqn:? end; lia. Qed.

Lemma alphabet_plain url v : sextet v -> is_space (alphabet url v) = false /\ alphabet url v <> 61%Z.
Proof. unfold sextet, alphabet, is_space. intros Hv. destruct url; repeat match goal with |- context [if ?b then _ else _] => destruct b eqn:? end; lia. Qed.

Lemma map_alphabet_inj url us : forall vs, Forall sextet us -> Forall sextet vs ->
  map (alphabet url) us = map (alphabet url) vs -> us = vs.
Proof.
  induction us as [|u us IH]; intros [|v vs] Hu Hv E; try discriminate; [reflexivity|].
  inversion Hu; inversion Hv; subst. cbn [map] in E. injection E as E1 E2. f_equal; [|now apply IH].
  now apply (alphabet_inj url).
Qed.

(* How a character is classified *)
Inductive char_class (url : bool) (ch : Z) : Z -> Prop :=
| cc_regular val : eqb (negb (Z.land val 128 =? 0)%Z && url) (negb (Z.land val 64 =? 0)%Z) = true ->
    sextet (Z.land val 63) -> ch = alphabet url (Z.land val 63) -> char_class url ch val
| cc_space val : eqb (negb (Z.land val 128 =? 0)%Z && url) (negb (Z.land val 64 =? 0)%Z) = false ->
    val = 65%Z -> is_space ch = true -> char_class url ch val
| cc_padding val : eqb (negb (Z.land val 128 =? 0)%Z && url) (negb (Z.land val 64 =? 0)%Z) = false ->
    val = 64%Z -> ch = 61%Z -> char_class url ch val
| cc_other val : eqb (negb (Z.land val 128 =? 0)%Z && url) (negb (Z.land val 64 =? 0)%Z) = false ->
    val <> 65%Z -> val <> 64%Z -> is_space ch = false ->
    (forall v, sextet v -> ch <> alphabet url v) -> char_class url ch val.

Definition class_check (url : bool) (i : nat) : bool :=
  let ch := Z.of_nat i in
  match decode_char ch with
  | Some val =>
    if eqb (negb (Z.land val 128 =? 0)%Z && url) (negb (Z.land val 64 =? 0)%Z) then
      (0 <=? Z.land val 63)%Z && (Z.land val 63 <? 64)%Z && (ch =? alphabet url (Z.land val 63))%Z
    else if (val =? 65)%Z then is_space ch
    else if (val =? 64)%Z then (ch =? 61)%Z
    else negb (is_space ch) && forallb (fun v => negb (ch =? alphabet url (Z.of_nat v))%Z) (seq 0 64)
  | None => false
  end.

Lemma class_check_all url : forallb (class_check url) (seq 0 256) = true.
Proof. destruct url; vm_compute; reflexivity. Qed.

Lemma decode_char_class url ch : is_byte ch -> exists val, decode_char ch = Some val /\ char_class url ch val.
Proof.
  unfold is_byte. intros Hch. pose proof (class_check_all url) as H. rewrite forallb_forall in H.
  specialize (H (Z.to_nat ch) ltac:(apply in_seq; lia)). unfold class_check in H. rewrite Z2Nat.id in H by lia.
  destruct (decode_char ch) as [val|]; [|discriminate]. exists val. split; [reflexivity|].
  destruct (eqb _ _) eqn:E.
  - apply cc_regular; [exact E|unfold sextet; lia|lia].
  - destruct (Z.eqb_spec val 65); [now apply cc_space|]. destruct (Z.eqb_spec val 64); [apply cc_padding; auto; lia|].
    apply andb_prop in H as [H1 H2]. apply cc_other; auto; [lia|].
    intros v Hv Ev. rewrite forallb_forall in H2. unfold sextet in Hv.
    specialize (H2 (Z.to_nat v) ltac:(apply in_seq; lia)). rewrite Z2Nat.id in H2 by lia. lia.
Qed.

(* Sextets and bytes *)
Lemma sextets_inv4 s0 s1 s2 s3 r bytes : s0 :: s1 :: s2 :: s3 :: r = sextets bytes ->
  exists a b c bytes', bytes = a :: b :: c :: bytes' /\
    s0 = (a / 4)%Z /\ s1 = (a mod 4 * 16 + b / 16)%Z /\ s2 = (b mod 16 * 4 + c / 64)%Z /\ s3 = (c mod 64)%Z /\ r = sextets bytes'.
Proof.
  destruct bytes as [|a [|b [|c bytes']]]; try discriminate. intros E. cbn [sextets] in E. injection E as -> -> -> -> ->.
  exists a, b, c, bytes'. auto 10.
Qed.

Lemma gather4 s0 s1 s2 s3 : sextet s0 -> sextet s1 -> sextet s2 -> sextet s3 ->
  Z.lor (Z.lor (Z.lor (Z.lor 0 (Z.shiftl s0 18)) (Z.shiftl s1 12)) (Z.shiftl s2 6)) (Z.shiftl s3 0) =
  (s0 * 262144 + s1 * 4096 + s2 * 64 + s3)%Z.
Proof.
  unfold sextet. intros H0 H1 H2 H3. rewrite Z.lor_0_l, !Z.shiftl_mul_pow2, Z.mul_1_r by lia.
  rewrite (lor_add s0 (s1 * 2 ^ 12) 18) by lia.
  replace (s0 * 2 ^ 18 + s1 * 2 ^ 12)%Z with ((s0 * 2 ^ 6 + s1) * 2 ^ 12)%Z by lia.
  rewrite lor_add by lia.
  replace ((s0 * 2 ^ 6 + s1) * 2 ^ 12 + s2 * 2 ^ 6)%Z with (((s0 * 2 ^ 6 + s1) * 2 ^ 6 + s2) * 2 ^ 6)%Z by lia.
  rewrite lor_add by lia. lia.
Qed.

Lemma gather3 s0 s1 s2 : sextet s0 -> sextet s1 -> sextet s2 ->
  Z.lor (Z.lor (Z.lor 0 (Z.shiftl s0 18)) (Z.shiftl s1 12)) (Z.shiftl s2 6) =
  (s0 * 262144 + s1 * 4096 + s2 * 64 + 0)%Z.
Proof.
  intros H0 H1 H2. rewrite <- (gather4 s0 s1 s2 0) by (assumption || (unfold sextet; lia)).
  now rewrite Z.shiftl_0_l, Z.lor_0_r.
Qed.

Lemma gather2 s0 s1 : sextet s0 -> sextet s1 ->
  Z.lor (Z.lor 0 (Z.shiftl s0 18)) (Z.shiftl s1 12) =
  (s0 * 262144 + s1 * 4096 + 0 * 64 + 0)%Z.
Proof.
  intros H0 H1. rewrite <- (gather4 s0 s1 0 0) by (assumption || (unfold sextet; lia)).
  now rewrite !Z.shiftl_0_l, !Z.lor_0_r.
Qed.

Lemma bytes3 s0 s1 s2 s3 : sextet s0 -> sextet s1 -> sextet s2 -> sextet s3 ->
  let batch := (s0 * 262144 + s1 * 4096 + s2 * 64 + s3)%Z in
  (batch / 2 ^ 16 mod 256 = s0 * 4 + s1 / 16 /\ batch / 2 ^ 8 mod 256 = (s1 mod 16) * 16 + s2 / 4 /\
  batch / 2 ^ 0 mod 256 = (s2 mod 4) * 64 + s3)%Z.
Proof.
  unfold sextet. cbv zeta. intros.
  change (2 ^ 16)%Z with 65536%Z. change (2 ^ 8)%Z with 256%Z. change (2 ^ 0)%Z with 1%Z.
  repeat split; Zdm.
Qed.

Section Decoder.
Context (cfg : dconfig).

Definition requires : bool := match d_padding cfg with PadRequire => true | _ => false end.

(* The sextets hs, already seen, and the remaining input t are the unpadded base64 text
   of bytes *)
Definition D0 (hs t bytes : list Z) : Prop :=
  Forall is_byte bytes /\
  map (alphabet (d_url cfg)) hs ++ without_space (d_space cfg) t = map (alphabet (d_url cfg)) (sextets bytes) /\
  (requires = true -> length bytes mod 3 = 0).

(* The remaining input t completes the state to bytes *)
Definition D (st : dec) (t bytes : list Z) : Prop :=
  de_pad st = 0 /\
  if de_out st then exists bytes', bytes = skipn (4 - de_size st) (de_hold st) ++ bytes' /\ D0 [] t bytes'
  else D0 (firstn (de_size st) (de_hold st)) t bytes.

Lemma D0_char hs v t bytes : sextet v -> D0 hs (alphabet (d_url cfg) v :: t) bytes <-> D0 (hs ++ [v]) t bytes.
Proof.
  intros Hv. unfold D0, without_space. destruct (alphabet_plain (d_url cfg) v Hv) as [Hs _].
  rewrite map_app, <- app_assoc. cbn [map app filter]. rewrite Hs. cbn [negb]. destruct (d_space cfg); reflexivity.
Qed.

Lemma D0_space hs ch t bytes : is_space ch = true -> d_space cfg = true -> D0 hs (ch :: t) bytes <-> D0 hs t bytes.
Proof. intros H1 H2. unfold D0, without_space. rewrite H2. cbn [filter]. rewrite H1. reflexivity. Qed.

Lemma D0_bad hs ch t bytes : Forall sextet hs -> (forall v, sextet v -> ch <> alphabet (d_url cfg) v) ->
  is_space ch = false \/ d_space cfg = false -> ~ D0 hs (ch :: t) bytes.
Proof.
  intros Hh Hn Hs (Hb & E & _).
  assert (E2 : without_space (d_space cfg) (ch :: t) = ch :: without_space (d_space cfg) t).
  { unfold without_space. destruct Hs as [Hs|Hs]; [|now rewrite Hs]. cbn [filter]. rewrite Hs. now destruct (d_space cfg). }
  rewrite E2 in E. assert (Hi : In ch (map (alphabet (d_url cfg)) (sextets bytes))).
  { rewrite <- E. apply in_or_app. right. now left. }
  apply in_map_iff in Hi as (v & Ev & Hi). apply (Hn v); [|now symmetry].
  pose proof (sextets_bound bytes Hb) as B. rewrite Forall_forall in B. apply (B v Hi).
Qed.

Lemma D0_batch s0 s1 s2 s3 t bytes : sextet s0 -> sextet s1 -> sextet s2 -> sextet s3 ->
  D0 [s0; s1; s2; s3] t bytes <->
  exists bytes', bytes = [s0 * 4 + s1 / 16; (s1 mod 16) * 16 + s2 / 4; (s2 mod 4) * 64 + s3]%Z ++ bytes' /\ D0 [] t bytes'.
Proof.
  intros H0 H1 H2 H3. split.
  - intros (Hb & E & Hq). pose proof (sextets_bound bytes Hb) as Bs.
    destruct bytes as [|a [|b [|c bytes']]]; try discriminate. cbn [sextets map app] in E. cbn [sextets] in Bs.
    injection E as E0 E1 E2 E3 E4.
    inversion Hb as [|? ? Ba Hb1]; subst. inversion Hb1 as [|? ? Bb Hb2]; subst. inversion Hb2 as [|? ? Bc Hb3]; subst.
    inversion Bs as [|? ? S0 Bs1]; subst. inversion Bs1 as [|? ? S1 Bs2]; subst. inversion Bs2 as [|? ? S2 Bs3]; subst. inversion Bs3 as [|? ? S3 _]; subst.
    apply alphabet_inj in E0, E1, E2, E3; try assumption.
    exists bytes'. split.
    + unfold is_byte, sextet in *. cbn [app]. do 2 f_equal; [|f_equal|f_equal; f_equal]; Zdm.
    + split; [exact Hb3|]. split; [exact E4|]. intros Hr. specialize (Hq Hr). cbn [length] in Hq.
      replace (S (S (S (length bytes')))) with (length bytes' + 1 * 3) in Hq by lia. now rewrite Nat.mod_add in Hq.
  - intros (bytes' & -> & Hb & E & Hq). unfold sextet in *. split; [|split].
    + cbn [app]. repeat constructor; try exact Hb; unfold is_byte; Zdm.
    + cbn [app sextets map]. cbn [app map] in E. rewrite E. do 4 (apply (f_equal2 cons); [f_equal; Zdm|]). reflexivity.
    + intros Hr. specialize (Hq Hr). cbn [app length].
      replace (S (S (S (length bytes')))) with (length bytes' + 1 * 3) by lia. now rewrite Nat.mod_add.
Qed.

Lemma D0_nil bytes : D0 [] [] bytes <-> bytes = [].
Proof.
  unfold D0, without_space. split.
  - intros (_ & E & _). destruct (d_space cfg); destruct bytes as [|a [|b [|c bytes']]]; (reflexivity || discriminate).
  - intros ->. destruct (d_space cfg); repeat split; constructor.
Qed.

Lemma D0_one s0 bytes : ~ D0 [s0] [] bytes.
Proof. intros (_ & E & _). unfold without_space in E. destruct (d_space cfg); destruct bytes as [|a [|b [|c bytes']]]; discriminate. Qed.

Lemma nospace_nil : without_space (d_space cfg) [] = [].
Proof. unfold without_space. now destruct (d_space cfg). Qed.

Lemma D0_two s0 s1 bytes : sextet s0 -> sextet s1 ->
  D0 [s0; s1] [] bytes <-> (s1 mod 16 = 0 /\ requires = false /\ bytes = [s0 * 4 + s1 / 16])%Z.
Proof.
  intros H0 H1. unfold D0. rewrite nospace_nil. unfold sextet in *. split.
  - intros (Hb & E & Hq). pose proof (sextets_bound bytes Hb) as Bs.
    destruct bytes as [|a [|b [|c bytes']]]; try discriminate. cbn [sextets map app] in E. cbn [sextets] in Bs.
    injection E as E0 E1. inversion Hb as [|? ? Ba _]; subst. inversion Bs as [|? ? S0 Bs1]; subst. inversion Bs1 as [|? ? S1 _]; subst.
    apply alphabet_inj in E0, E1; try assumption. unfold is_byte in *.
    split; [Zdm|]. split; [destruct requires; [specialize (Hq eq_refl); discriminate|reflexivity]|]. f_equal. Zdm.
  - intros (E & Hr & ->). split; [repeat constructor; unfold is_byte; Zdm|]. split; [|rewrite Hr; discriminate].
    cbn [app sextets map]. do 2 (apply (f_equal2 cons); [f_equal; Zdm|]). reflexivity.
Qed.

Lemma D0_three s0 s1 s2 bytes : sextet s0 -> sextet s1 -> sextet s2 ->
  D0 [s0; s1; s2] [] bytes <-> (s2 mod 4 = 0 /\ requires = false /\ bytes = [s0 * 4 + s1 / 16; (s1 mod 16) * 16 + s2 / 4])%Z.
Proof.
  intros H0 H1 H2. unfold D0. rewrite nospace_nil. unfold sextet in *. split.
  - intros (Hb & E & Hq). pose proof (sextets_bound bytes Hb) as Bs.
    destruct bytes as [|a [|b [|c bytes']]]; try discriminate. cbn [sextets map app] in E. cbn [sextets] in Bs.
    injection E as E0 E1 E2. inversion Hb as [|? ? Ba Hb1]; subst. inversion Hb1 as [|? ? Bb _]; subst.
    inversion Bs as [|? ? S0 Bs1]; subst. inversion Bs1 as [|? ? S1 Bs2]; subst. inversion Bs2 as [|? ? S2 _]; subst.
    apply alphabet_inj in E0, E1, E2; try assumption. unfold is_byte in *.
    split; [Zdm|]. split; [destruct requires; [specialize (Hq eq_refl); discriminate|reflexivity]|]. f_equal; [|f_equal]; Zdm.
  - intros (E & Hr & ->). split; [repeat constructor; unfold is_byte; Zdm|]. split; [|rewrite Hr; discriminate].
    cbn [app sextets map]. do 3 (apply (f_equal2 cons); [f_equal; Zdm|]). reflexivity.
Qed.

Definition dhold_ok (st : dec) : Prop :=
  exists h0 h1 h2 h3, de_hold st = [h0; h1; h2; h3] /\
    (de_out st = false -> Forall sextet (firstn (de_size st) [h0; h1; h2; h3])).

Definition dgood (lab : dlabel) (st : dec) (data : list Z) (eoi : bool) : Prop :=
  dhold_ok st /\
  match lab with
  | DInput => de_out st = false /\ de_size st <= 3
  | DBatch => de_out st = false /\ de_size st = 4
  | DOutput => de_out st = true /\ 1 <= de_size st <= 3
  | DPartial => de_out st = false /\ valid_partial st = Some true /\
      (de_pad st = 0 -> data = [] /\ eoi = true /\ requires = false)
  end.

Definition dready (st : dec) : Prop := dgood (if de_out st then DOutput else DInput) st [] true.

Definition drank (lab : dlabel) (st : dec) : nat :=
  match lab with DInput => 6 - de_pad st + 2 | DBatch | DPartial => 1 | DOutput => 0 end.

Definition weight (st : dec) : nat := if de_out st then 4 * de_size st else 3 * de_size st.

Definition dpost (st : dec) (data : list Z) (eoi : bool) (room : nat) (r : option (call_result dec)) : Prop :=
  exists b st' data' out, r = Some (b, st', data', out) /\ dready st' /\ length out <= room /\
    (exists used, data = used ++ data') /\
    4 * length out + weight st' + 3 * length data' <= weight st + 3 * length data /\
    (b = true -> eoi = true /\ data' = []) /\
    (forall future, (eoi = true -> future = []) -> forall bytes,
       D st (data ++ future) bytes <->
       exists bytes', bytes = out ++ bytes' /\ if b then bytes' = [] else D st' (data' ++ future) bytes') /\
    (b = false ->
       length out = room /\ (forall t bytes, D st' t bytes -> bytes <> []) \/
       eoi = false /\ data' = [] \/
       (forall future, (eoi = true -> future = []) -> forall bytes, ~ D st' (data' ++ future) bytes)).

Lemma dpost_emit c st st2 data eoi room r :
  (forall t bytes, D st t bytes <-> exists bytes', bytes = c :: bytes' /\ D st2 t bytes') ->
  weight st2 + 4 <= weight st ->
  dpost st2 data eoi room r -> dpost st data eoi (S room) (emit c r).
Proof.
  intros He Hw (b & st' & data' & out & -> & H1 & H2 & H3 & H4 & H5 & H6 & H7).
  exists b, st', data', (c :: out). split; [reflexivity|]. split; [exact H1|]. split; [cbn; lia|]. split; [exact H3|].
  split; [cbn [length]; lia|]. split; [exact H5|]. split.
  - intros future Hf bytes. rewrite He. split.
    + intros (by1 & -> & Hd). apply (H6 future Hf) in Hd as (by2 & -> & Hd). now exists by2.
    + intros (by2 & -> & Hd). exists (out ++ by2). split; [reflexivity|]. apply (H6 future Hf). now exists by2.
  - intros Hb. destruct (H7 Hb) as [[H H']|H]; [left|right; exact H]. cbn [length]. split; [lia|exact H'].
Qed.

Lemma dpost_same st st2 data data2 eoi room r :
  (forall future, (eoi = true -> future = []) -> forall bytes, D st (data ++ future) bytes <-> D st2 (data2 ++ future) bytes) ->
  (exists u, data = u ++ data2) -> weight st2 + 3 * length data2 <= weight st + 3 * length data ->
  dpost st2 data2 eoi room r -> dpost st data eoi room r.
Proof.
  intros He (u & Hu) Hw (b & st' & data' & out & -> & H1 & H2 & (v & H3) & H4 & H5 & H6 & H7).
  exists b, st', data', out. split; [reflexivity|]. split; [exact H1|]. split; [exact H2|].
  split; [exists (u ++ v); now rewrite <- app_assoc, <- H3|]. split; [lia|]. split; [exact H5|]. split; [|exact H7].
  intros future Hf bytes. rewrite He by exact Hf. now apply H6.
Qed.

Lemma dpost_stop st eoi data room : dready st ->
  (room = 0 /\ (forall t bytes, D st t bytes -> bytes <> []) \/ eoi = false /\ data = [] \/
   (forall future, (eoi = true -> future = []) -> forall bytes, ~ D st (data ++ future) bytes)) ->
  dpost st data eoi room (Some (false, st, data, [])).
Proof.
  intros Hr H. exists false, st, data, []. split; [reflexivity|]. split; [exact Hr|]. split; [cbn; lia|].
  split; [now exists []|]. split; [cbn [length]; lia|]. split; [discriminate|]. split.
  - intros future _ bytes. split; [intros Hd; now exists bytes|intros (bytes' & -> & Hd); exact Hd].
  - intros _. cbn [length]. destruct H as [[H H']|[H|H]]; auto.
Qed.

Lemma D_padded st t bytes : 0 < de_pad st -> ~ D st t bytes.
Proof. intros H (E & _). lia. Qed.

Lemma valid_partial_some h0 h1 h2 h3 pad sz : sz <= 3 -> Forall sextet (firstn sz [h0; h1; h2; h3]) ->
  exists b, valid_partial (Dec false pad sz [h0; h1; h2; h3]) = Some b /\
    (b = true <-> sz = 2 /\ (h1 mod 16 = 0)%Z \/ sz = 3 /\ (h2 mod 4 = 0)%Z).
Proof.
  intros Hs Hh. unfold valid_partial. cbn [de_size de_hold].
  destruct sz as [|[|[|[|sz]]]]; [| | | |lia]; cbn [Nat.leb Nat.ltb negb nth_error obind].
  - exists false. split; [reflexivity|]. split; [discriminate|lia].
  - exists false. split; [reflexivity|]. split; [discriminate|lia].
  - eexists. split; [reflexivity|]. change 15%Z with (Z.ones 4). rewrite Z.land_ones by lia. change (2 ^ 4)%Z with 16%Z. lia.
  - eexists. split; [reflexivity|]. change 3%Z with (Z.ones 2). rewrite Z.land_ones by lia. change (2 ^ 2)%Z with 4%Z. lia.
Qed.

Lemma dec_loop_ok fuel : forall lab st data eoi room,
  dgood lab st data eoi -> Forall is_byte data -> 9 * (length data + room) + drank lab st < fuel ->
  dpost st data eoi room (dec_loop cfg fuel lab st data eoi room).
Proof.
  induction fuel as [|fuel IH]; intros lab st data eoi room Hg Hd Hf; [lia|].
  destruct st as [o pad sz hold]. destruct Hg as ((h0 & h1 & h2 & h3 & Eh & Hh) & Hg). cbn [de_hold de_out de_size de_pad] in *. subst hold.
  destruct lab; cbn [drank] in Hf; cbn [dec_loop de_out de_size de_hold de_pad].
  - (* DInput *)
    destruct Hg as (-> & Hs). specialize (Hh eq_refl).
    assert (Hr : dready (Dec false pad sz [h0; h1; h2; h3])).
    { split; [exists h0, h1, h2, h3; auto|]. cbn [de_out de_size]. auto. }
    destruct (valid_partial_some h0 h1 h2 h3 pad sz Hs Hh) as (vp & Evp & Hvp).
    destruct data as [|ch data].
    + destruct eoi; cbn [negb].
      * destruct (Nat.eqb_spec pad 0) as [->|Hp].
        -- fold requires. destruct requires eqn:Er; cbn [obind].
           ++ destruct (Nat.eqb_spec sz 0) as [->|Hz].
              ** exists true, (Dec false 0 0 [h0; h1; h2; h3]), [], []. split; [reflexivity|]. split; [exact Hr|]. split; [cbn; lia|].
                 split; [now exists []|]. split; [cbn; lia|]. split; [auto|]. split; [|discriminate].
                 intros future Hf' bytes. rewrite (Hf' eq_refl). unfold D. cbn [de_pad de_out de_size firstn app]. rewrite D0_nil.
                 split; [intros [_ ->]; now exists []|intros (? & -> & ->); auto].
              ** apply dpost_stop; [exact Hr|]. right. right. intros future Hf' bytes. rewrite (Hf' eq_refl). cbn [app].
                 intros (_ & Hdd). cbn [de_out de_size de_hold] in Hdd.
                 destruct sz as [|[|[|[|sz]]]]; [lia| | | |lia]; cbn [firstn] in Hdd, Hh.
                 { now apply D0_one in Hdd. }
                 { inversion Hh as [|? ? S0 Hh1]; subst. inversion Hh1 as [|? ? S1 _]; subst.
                   apply D0_two in Hdd as (_ & Hdd & _); [congruence|assumption|assumption]. }
                 { inversion Hh as [|? ? S0 Hh1]; subst. inversion Hh1 as [|? ? S1 Hh2]; subst. inversion Hh2 as [|? ? S2 _]; subst.
                   apply D0_three in Hdd as (_ & Hdd & _); [congruence|assumption|assumption|assumption]. }
           ++ rewrite Evp. cbn [obind]. destruct vp.
              ** apply IH; [|constructor|cbn [drank length] in *; lia].
                 split; [exists h0, h1, h2, h3; auto|]. cbn [de_out de_pad]. auto.
              ** destruct (Nat.eqb_spec sz 0) as [->|Hz].
                 --- exists true, (Dec false 0 0 [h0; h1; h2; h3]), [], []. split; [reflexivity|]. split; [exact Hr|]. split; [cbn; lia|].
                     split; [now exists []|]. split; [cbn; lia|]. split; [auto|]. split; [|discriminate].
                     intros future Hf' bytes. rewrite (Hf' eq_refl). unfold D. cbn [de_pad de_out de_size firstn app]. rewrite D0_nil.
                     split; [intros [_ ->]; now exists []|intros (? & -> & ->); auto].
                 --- apply dpost_stop; [exact Hr|]. right. right. intros future Hf' bytes. rewrite (Hf' eq_refl). cbn [app].
                     intros (_ & Hdd). cbn [de_out de_size de_hold] in Hdd.
                     destruct sz as [|[|[|[|sz]]]]; [lia| | | |lia]; cbn [firstn] in Hdd, Hh.
                     { now apply D0_one in Hdd. }
                     { inversion Hh as [|? ? S0 Hh1]; subst. inversion Hh1 as [|? ? S1 _]; subst.
                       apply D0_two in Hdd as (Hm & _); [|assumption|assumption]. enough (false = true) by discriminate. apply Hvp. auto. }
                     { inversion Hh as [|? ? S0 Hh1]; subst. inversion Hh1 as [|? ? S1 Hh2]; subst. inversion Hh2 as [|? ? S2 _]; subst.
                       apply D0_three in Hdd as (Hm & _); [|assumption|assumption|assumption]. enough (false = true) by discriminate. apply Hvp. auto. }
        -- apply dpost_stop; [exact Hr|]. right. right. intros. apply D_padded. cbn [de_pad]. lia.
      * apply dpost_stop; [exact Hr|auto].
    + inversion Hd as [|? ? Hch Hd']; subst.
      destruct (decode_char_class (d_url cfg) ch Hch) as (val & Ev & Hc). rewrite Ev. cbn [obind].
      cbn [length] in Hf.
      assert (Hbad : (forall v, sextet v -> ch <> alphabet (d_url cfg) v) -> is_space ch = false \/ d_space cfg = false ->
        dpost (Dec false pad sz [h0; h1; h2; h3]) (ch :: data) eoi room (Some (false, Dec false pad sz [h0; h1; h2; h3], ch :: data, []))).
      { intros H1 H2. apply dpost_stop; [exact Hr|]. right. right. intros future _ bytes (_ & Hdd).
        cbn [de_out de_size de_hold] in Hdd. cbn [app] in Hdd. revert Hdd. apply D0_bad; assumption. }
      destruct Hc as [val Hreg Hv Ec|val Hreg Ec Hsp|val Hreg Ec E61|val Hreg Hn1 Hn2 Hns Hna]; rewrite Hreg.
      * destruct (Nat.eqb_spec pad 0) as [->|Hp].
        -- set (v := Z.land val 63) in *. clearbody v. clear Evp Hvp.
           destruct sz as [|[|[|[|sz]]]]; [| | | |lia]; cbn [set_nth obind Nat.add de_size Nat.ltb Nat.leb];
             (eapply (dpost_same _ _ (ch :: data) data);
              [|now exists [ch]| |apply IH; [|exact Hd'|cbn [drank de_pad]; lia]]).
           all: try (cbn [weight de_out de_size length]; lia).
           all: try (intros future _ bytes; unfold D; cbn [de_pad de_out de_size de_hold firstn app]; rewrite Ec;
                     rewrite (D0_char _ v) by exact Hv; reflexivity).
           all: split; [do 4 eexists; split; [reflexivity|intros _; cbn [de_size firstn] in *]|cbn [de_out de_size]; auto].
           ++ repeat constructor; apply Hv.
           ++ inversion Hh; subst. repeat (constructor; try assumption).
           ++ inversion Hh as [|? ? S0 Hh1]; subst. inversion Hh1 as [|? ? S1 _]; subst. repeat (constructor; try assumption).
           ++ inversion Hh as [|? ? S0 Hh1]; subst. inversion Hh1 as [|? ? S1 Hh2]; subst. inversion Hh2 as [|? ? S2 _]; subst.
              repeat (constructor; try assumption).
        -- apply dpost_stop; [exact Hr|]. right. right. intros. apply D_padded. cbn [de_pad]. lia.
      * rewrite Ec. cbn [Z.eqb Pos.eqb]. destruct (d_space cfg) eqn:Esp.
        -- eapply (dpost_same _ _ (ch :: data) data); [|now exists [ch]| |apply IH; [|exact Hd'|cbn [drank de_pad]; lia]].
           ++ intros future _ bytes. unfold D. cbn [de_pad de_out de_size de_hold app]. now rewrite D0_space.
           ++ cbn [weight de_out de_size length]. lia.
           ++ split; [exists h0, h1, h2, h3; auto|]. cbn [de_out de_size]. auto.
        -- apply Hbad; [|auto]. intros v Hv E. destruct (alphabet_plain (d_url cfg) v Hv) as [E2 _]. congruence.
      * assert (Hnone : forall v, sextet v -> ch <> alphabet (d_url cfg) v).
        { intros v Hv E. destruct (alphabet_plain (d_url cfg) v Hv) as [_ E2]. congruence. }
        assert (Hns : is_space ch = false) by (rewrite E61; reflexivity).
        rewrite Ec. cbn [Z.eqb Pos.eqb]. set (allow := match d_padding cfg with PadReject => false | _ => true end).
        destruct allow; cbn [obind]; [|apply Hbad; auto]. rewrite Evp. cbn [obind].
        destruct vp; [|apply Hbad; auto].
        assert (Hsame : forall future, (eoi = true -> future = []) -> forall bytes,
           D (Dec false pad sz [h0; h1; h2; h3]) ((ch :: data) ++ future) bytes <->
           D (Dec false (pad + 1) sz [h0; h1; h2; h3]) ((ch :: data) ++ future) bytes).
        { intros future _ bytes. split; intros Hdd; exfalso; revert Hdd; [|apply D_padded; cbn [de_pad]; lia].
          intros (_ & Hdd). cbn [de_out de_size de_hold app] in Hdd. revert Hdd. apply D0_bad; auto. }
        destruct (Nat.ltb_spec (sz + (pad + 1)) 4).
        -- eapply (dpost_same _ _ (ch :: data) (ch :: data)); [exact Hsame|now exists []|cbn [weight de_out de_size]; lia|].
           apply IH; [|exact Hd|cbn [drank de_pad length] in *; assert (sz = 2 \/ sz = 3) by (destruct (proj1 Hvp eq_refl); lia); lia].
           split; [exists h0, h1, h2, h3; auto|]. cbn [de_out de_size]. auto.
        -- eapply (dpost_same _ _ (ch :: data) (ch :: data)); [exact Hsame|now exists []|cbn [weight de_out de_size]; lia|].
           apply IH; [|exact Hd|cbn [drank de_pad length] in *; lia].
           split; [exists h0, h1, h2, h3; auto|]. cbn [de_out de_size de_pad]. split; [reflexivity|]. split; [exact Evp|lia].
      * replace (val =? 65)%Z with false by lia. replace (val =? 64)%Z with false by lia. apply Hbad; auto.
  - (* DBatch *)
    destruct Hg as (-> & ->). specialize (Hh eq_refl). cbn [firstn] in Hh.
    inversion Hh as [|? ? S0 Hh1]; subst. inversion Hh1 as [|? ? S1 Hh2]; subst. inversion Hh2 as [|? ? S2 Hh3]; subst. inversion Hh3 as [|? ? S3 _]; subst.
    cbn [orb negb Nat.eqb gather nth_error obind Nat.sub Nat.mul Nat.add Z.of_nat Pos.of_succ_nat Pos.succ].
    rewrite gather4 by assumption. destruct (bytes3 h0 h1 h2 h3 S0 S1 S2 S3) as (E0 & E1 & E2).
    cbn [scatter Nat.sub Nat.mul Nat.add Z.of_nat Pos.of_succ_nat Pos.succ obind set_nth].
    rewrite !byte_of by lia. rewrite E0, E1, E2.
    eapply (dpost_same _ _ data data); [|now exists []| |apply IH; [|exact Hd|cbn [drank]; lia]].
    + intros future _ bytes. unfold D. cbn [de_pad de_out de_size de_hold firstn skipn Nat.sub]. now rewrite D0_batch.
    + cbn [weight de_out de_size]. lia.
    + split; [do 4 eexists; split; [reflexivity|discriminate]|]. cbn [de_out de_size]. split; [reflexivity|lia].
  - (* DOutput *)
    destruct Hg as (-> & Hs). replace (0 <? sz) with true by lia. replace (sz <=? 3) with true by lia. cbn [negb orb].
    assert (Hn : exists c, nth_error [h0; h1; h2; h3] (4 - sz) = Some c /\
                   skipn (4 - sz) [h0; h1; h2; h3] = c :: skipn (4 - (sz - 1)) [h0; h1; h2; h3]).
    { destruct sz as [|[|[|[|sz]]]]; [lia| | | |lia]; cbn [Nat.sub nth_error skipn]; eexists; split; reflexivity. }
    destruct Hn as (c & Hnc & Hskip). rewrite Hnc. cbn [obind].
    destruct room as [|room].
    { apply dpost_stop; [split; [exists h0, h1, h2, h3; split; [reflexivity|discriminate]|cbn [de_out de_size]; auto]|].
      left. split; [reflexivity|]. intros t bytes (_ & bytes' & -> & _). cbn [de_size de_hold]. rewrite Hskip. discriminate. }
    destruct (Nat.ltb_spec 0 (sz - 1)).
    + eapply dpost_emit; [| |apply IH; [|exact Hd|cbn [drank] in *; lia]].
      * intros t bytes. unfold D. cbn [de_pad de_out de_size de_hold]. rewrite Hskip. split.
        -- intros (Hp & by1 & -> & Hdd). exists (skipn (4 - (sz - 1)) [h0; h1; h2; h3] ++ by1). split; [reflexivity|].
           split; [exact Hp|]. now exists by1.
        -- intros (by2 & -> & Hp & by1 & -> & Hdd). split; [exact Hp|]. now exists by1.
      * cbn [weight de_out de_size]. lia.
      * split; [exists h0, h1, h2, h3; split; [reflexivity|discriminate]|]. cbn [de_out de_size]. split; [reflexivity|lia].
    + assert (sz = 1) as -> by lia. cbn [Nat.sub] in *.
      eapply dpost_emit; [| |apply IH; [|exact Hd|cbn [drank de_pad] in *; lia]].
      * intros t bytes. unfold D. cbn [de_pad de_out de_size de_hold Nat.sub]. rewrite Hskip. cbn [skipn firstn]. split.
        -- intros (Hp & by1 & -> & Hdd). exists by1. auto.
        -- intros (by2 & -> & Hp & Hdd). split; [exact Hp|]. now exists by2.
      * cbn [weight de_out de_size]. lia.
      * split; [exists h0, h1, h2, h3; split; [reflexivity|intros _; constructor]|]. cbn [de_out de_size]. split; [reflexivity|lia].
  - (* DPartial *)
    destruct Hg as (-> & Evp & Hp). specialize (Hh eq_refl). rewrite Evp. cbn [obind negb].
    assert (Hs3 : sz <= 3).
    { unfold valid_partial in Evp. cbn [de_size] in Evp. destruct (Nat.leb_spec sz 3); [assumption|discriminate]. }
    destruct (valid_partial_some h0 h1 h2 h3 pad sz Hs3 Hh) as (vp & Evp' & Hvp). rewrite Evp in Evp'. injection Evp' as <-.
    destruct (proj1 Hvp eq_refl) as [[-> Hm]|[-> Hm]]; clear Hvp; cbn [firstn] in Hh.
    + inversion Hh as [|? ? S0 Hh1]; subst. inversion Hh1 as [|? ? S1 _]; subst.
      cbn [orb negb Nat.eqb gather nth_error obind Nat.sub Nat.mul Nat.add Z.of_nat Pos.of_succ_nat Pos.succ].
      rewrite gather2 by assumption.
      destruct (bytes3 h0 h1 0 0 S0 S1 ltac:(unfold sextet; lia) ltac:(unfold sextet; lia)) as (E0 & _ & _).
      cbn [scatter Nat.sub Nat.mul Nat.add Z.of_nat Pos.of_succ_nat Pos.succ obind set_nth].
      rewrite !byte_of by lia. rewrite E0.
      eapply (dpost_same _ _ data data); [|now exists []| |apply IH; [|exact Hd|cbn [drank]; lia]].
      * intros future Hf' bytes. unfold D. cbn [de_pad de_out de_size de_hold firstn skipn Nat.sub].
        split; intros (Hp0 & Hdd); (split; [exact Hp0|]); destruct (Hp Hp0) as (-> & -> & Hq); rewrite (Hf' eq_refl) in *; cbn [app] in *.
        -- apply D0_two in Hdd as (_ & _ & ->); try assumption. exists []. split; [reflexivity|now apply D0_nil].
        -- destruct Hdd as (by1 & -> & Hdd). apply D0_nil in Hdd. subst by1. apply D0_two; auto.
      * cbn [weight de_out de_size]. lia.
      * split; [do 4 eexists; split; [reflexivity|discriminate]|]. cbn [de_out de_size]. split; [reflexivity|lia].
    + inversion Hh as [|? ? S0 Hh1]; subst. inversion Hh1 as [|? ? S1 Hh2]; subst. inversion Hh2 as [|? ? S2 _]; subst.
      cbn [orb negb Nat.eqb gather nth_error obind Nat.sub Nat.mul Nat.add Z.of_nat Pos.of_succ_nat Pos.succ].
      rewrite gather3 by assumption.
      destruct (bytes3 h0 h1 h2 0 S0 S1 S2 ltac:(unfold sextet; lia)) as (E0 & E1 & _).
      cbn [scatter Nat.sub Nat.mul Nat.add Z.of_nat Pos.of_succ_nat Pos.succ obind set_nth].
      rewrite !byte_of by lia. rewrite E0, E1.
      eapply (dpost_same _ _ data data); [|now exists []| |apply IH; [|exact Hd|cbn [drank]; lia]].
      * intros future Hf' bytes. unfold D. cbn [de_pad de_out de_size de_hold firstn skipn Nat.sub].
        split; intros (Hp0 & Hdd); (split; [exact Hp0|]); destruct (Hp Hp0) as (-> & -> & Hq); rewrite (Hf' eq_refl) in *; cbn [app] in *.
        -- apply D0_three in Hdd as (_ & _ & ->); try assumption. exists []. split; [reflexivity|now apply D0_nil].
        -- destruct Hdd as (by1 & -> & Hdd). apply D0_nil in Hdd. subst by1. apply D0_three; auto.
      * cbn [weight de_out de_size]. lia.
      * split; [do 4 eexists; split; [reflexivity|discriminate]|]. cbn [de_out de_size]. split; [reflexivity|lia].
Qed.

Lemma decode_call_ok st data eoi room : dready st -> Forall is_byte data ->
  dpost st data eoi room (decode_call cfg st data eoi room).
Proof.
  intros Hr Hd. unfold decode_call.
  apply dec_loop_ok; [|exact Hd|destruct (de_out st); cbn [drank]; lia].
  destruct st as [[|] pad sz hold]; destruct Hr as (H1 & H2); split; [exact H1|exact H2|exact H1|exact H2].
Qed.

Lemma dready_init : dready dec_init.
Proof.
  split; [exists 0%Z, 0%Z, 0%Z, 0%Z; split; [reflexivity|intros _; constructor]|].
  cbn [de_out dec_init de_size]. split; [reflexivity|lia].
Qed.

End Decoder.
