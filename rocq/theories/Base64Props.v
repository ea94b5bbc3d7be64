(* Base64 (C13 to C16, C44, C45). *)
From Coq Require Import ZArith List Bool Arith Lia ZifyBool.
From Verif Require Import CInt IntModel IntSpec IntProofs BufferModel BufferProofs ArrLib Base64Model Base64Spec Base64Proofs Base64Proofs2.
Import ListNotations.
Open Scope nat_scope.

(* What the encoder is to produce *)
Definition encoded (cfg : econfig) (bytes : list Z) : list Z :=
  in_lines (e_line cfg) (text (e_url cfg) (e_pad cfg) bytes).

(* What the decoder accepts: text without padding *)
Definition decodes (cfg : dconfig) (t bytes : list Z) : Prop :=
  Forall is_byte bytes /\ without_space (d_space cfg) t = text (d_url cfg) false bytes /\
  (d_padding cfg = PadRequire -> length bytes mod 3 = 0).

Lemma erest_init cfg bytes : erest cfg enc_init bytes = encoded cfg bytes.
Proof.
  unfold erest, encoded, in_lines, to_lines, body. cbn [en_out enc_init en_size en_hold en_line firstn app].
  destruct (Nat.eqb_spec (e_line cfg) 0) as [E|E]; [reflexivity|]. now replace (0 =? e_line cfg) with false by lia.
Qed.

Lemma D_init cfg t bytes : D cfg dec_init t bytes <-> decodes cfg t bytes.
Proof.
  unfold D, D0, decodes, text, requires. cbn [de_out dec_init de_size de_hold de_pad firstn map app]. rewrite app_nil_r.
  destruct (d_padding cfg); intuition congruence.
Qed.

(* C13, C15: in one go, the encoder produces exactly the specified text if the buffer is
   large enough, and otherwise says that it is not. *)
Theorem base64_encode_exact cfg bytes room : Forall is_byte bytes ->
  encode cfg bytes room =
    Some (if length (encoded cfg bytes) <=? room then inl (encoded cfg bytes) else inr true).
Proof.
  intros Hb. unfold encode.
  destruct (encode_call_ok cfg enc_init bytes true room (eready_init cfg) Hb)
    as (b & st' & data' & out & -> & _ & Hl & _ & He & _ & Hp).
  cbn [obind]. specialize (He [] (fun _ => eq_refl)). rewrite app_nil_r, erest_init in He.
  destruct b.
  - rewrite app_nil_r in He. rewrite <- He in Hl. rewrite He in *. now replace (length out <=? room) with true by lia.
  - destruct (Hp eq_refl) as [[Hr Hn]|[Hr _]]; [|discriminate]. specialize (Hn [] (fun _ => eq_refl)).
    assert (0 < length (erest cfg st' (data' ++ []))) by (destruct (erest cfg st' (data' ++ [])); [easy|cbn; lia]).
    rewrite He, app_length. replace (length out + _ <=? room) with false by lia. now replace (length out =? room) with true by lia.
Qed.

Example base64_encode_exact_ex :
  Forall is_byte [72; 101; 108; 108; 111]%Z /\
  encode (EConfig false true 4) [72; 101; 108; 108; 111]%Z 10 = Some (inl [83; 71; 86; 115; 10; 98; 71; 56; 61; 10]%Z) /\
  encode (EConfig false false 0) [72; 101; 108; 108; 111]%Z 6 = Some (inr true).
Proof. split; [repeat constructor; unfold is_byte; lia|]. split; vm_compute; reflexivity. Qed.

(* C13: the decoder accepts exactly the unpadded texts (see C14), and produces the bytes. *)
Theorem base64_decode_exact cfg t room : Forall is_byte t ->
  exists r, decode cfg t room = Some r /\
    (forall bytes, r = inl bytes <-> decodes cfg t bytes /\ length bytes <= room) /\
    (forall bytes, decodes cfg t bytes -> room < length bytes -> r = inr true).
Proof.
  intros Hb. unfold decode.
  destruct (decode_call_ok cfg dec_init t true room (dready_init cfg) Hb)
    as (b & st' & data' & out & -> & _ & Hl & _ & _ & _ & Hd & Hp).
  cbn [obind]. eexists. split; [reflexivity|]. specialize (Hd [] (fun _ => eq_refl)).
  rewrite app_nil_r in Hd. assert (Hd' : forall bytes, decodes cfg t bytes <-> exists bytes', bytes = out ++ bytes' /\
    if b then bytes' = [] else D cfg st' (data' ++ []) bytes') by (intros; rewrite <- Hd; symmetry; apply D_init).
  clear Hd. destruct b.
  - split.
    + intros bytes. rewrite Hd'. split.
      * intros E. injection E as ->. split; [exists []; now rewrite app_nil_r|exact Hl].
      * intros [(bytes' & -> & ->) _]. now rewrite app_nil_r.
    + intros bytes Hc Hroom. apply Hd' in Hc as (bytes' & -> & ->). rewrite app_length in Hroom. cbn in Hroom. lia.
  - split.
    + intros bytes. split; [discriminate|]. intros [Hc Hroom]. exfalso. apply Hd' in Hc as (bytes' & -> & Hc).
      rewrite app_length in Hroom.
      destruct (Hp eq_refl) as [[Hr Hn]|[[Hr _]|Hn]]; [|discriminate|].
      * apply Hn in Hc. destruct bytes'; [easy|cbn in Hroom; lia].
      * now apply (Hn [] (fun _ => eq_refl) bytes').
    + intros bytes Hc Hroom. apply Hd' in Hc as (bytes' & -> & Hc).
      destruct (Hp eq_refl) as [[Hr Hn]|[[Hr _]|Hn]]; [|discriminate|].
      * now replace (length out =? room) with true by lia.
      * exfalso. now apply (Hn [] (fun _ => eq_refl) bytes').
Qed.

Example base64_decode_exact_ex :
  Forall is_byte [83; 71; 86; 115; 10; 98; 71; 56]%Z /\
  decodes (DConfig false PadAllow true) [83; 71; 86; 115; 10; 98; 71; 56]%Z [72; 101; 108; 108; 111]%Z /\
  decode (DConfig false PadAllow true) [83; 71; 86; 115; 10; 98; 71; 56]%Z 6 = Some (inl [72; 101; 108; 108; 111]%Z) /\
  decode (DConfig false PadAllow false) [83; 71; 86; 115; 10; 98; 71; 56]%Z 6 = Some (inr false).
Proof.
  split; [repeat constructor; unfold is_byte; lia|]. split; [|split; vm_compute; reflexivity].
  split; [repeat constructor; unfold is_byte; lia|]. split; [reflexivity|discriminate].
Qed.

(* Division into lines only adds white space *)
Lemma lines_from_space L cs : forall k, without_space true cs = cs -> without_space true (lines_from L k cs) = cs.
Proof.
  unfold without_space. induction cs as [|c cs IH]; intros k H; cbn [lines_from filter].
  - destruct (k =? 0); reflexivity.
  - cbn [filter] in H. destruct (is_space c) eqn:E; cbn [negb] in *.
    + exfalso. assert (Hl : length (filter (fun c => negb (is_space c)) cs) <= length cs).
      { clear. induction cs as [|c cs IH]; cbn [filter length]; [lia|]. destruct (negb (is_space c)); cbn [length]; lia. }
      rewrite H in Hl. cbn [length] in Hl. lia.
    + injection H as H. f_equal. destruct (k + 1 =? L); cbn [filter]; [change (negb (is_space 10)) with false; cbn iota|]; now apply IH.
Qed.

Lemma text_no_space url bytes : Forall is_byte bytes -> without_space true (text url false bytes) = text url false bytes.
Proof.
  intros Hb. unfold text, without_space. rewrite app_nil_r. pose proof (sextets_bound bytes Hb) as B.
  induction B as [|v vs Hv B IH]; [reflexivity|]. cbn [map filter].
  destruct (alphabet_plain url v Hv) as [-> _]. cbn [negb]. now rewrite IH.
Qed.

Lemma encoded_no_space cfg bytes : e_pad cfg = false -> Forall is_byte bytes ->
  without_space true (encoded cfg bytes) = text (e_url cfg) false bytes.
Proof.
  intros Hp Hb. unfold encoded, in_lines. rewrite Hp. pose proof (text_no_space (e_url cfg) bytes Hb) as H.
  destruct (e_line cfg =? 0); [exact H|]. now apply lines_from_space.
Qed.

Lemma alphabet_byte url v : sextet v -> is_byte (alphabet url v).
Proof. unfold sextet, is_byte, alphabet. intros Hv. destruct url; repeat match goal with |- context [if ?b then _ else _] => destruct b eqn:? end; lia. Qed.

Lemma encoded_bytes cfg bytes : Forall is_byte bytes -> Forall is_byte (encoded cfg bytes).
Proof.
  intros Hb. unfold encoded.
  assert (Ht : Forall is_byte (text (e_url cfg) (e_pad cfg) bytes)).
  { unfold text. apply Forall_app. split.
    - apply Forall_map. eapply Forall_impl; [|apply (sextets_bound bytes Hb)]. intros v Hv. now apply alphabet_byte.
    - destruct (e_pad cfg); [|constructor]. apply Forall_forall. intros x Hx. apply repeat_spec in Hx. subst x. unfold is_byte. lia. }
  unfold in_lines. destruct (e_line cfg =? 0); [exact Ht|]. generalize 0 as k.
  induction Ht as [|c cs Hc Ht IH]; intros k; cbn [lines_from].
  - destruct (k =? 0); repeat constructor; unfold is_byte; lia.
  - constructor; [exact Hc|]. destruct (k + 1 =? e_line cfg); [constructor; [unfold is_byte; lia|]|]; apply IH.
Qed.

(* C15: the number of characters *)
Lemma sextets_length bytes : length (sextets bytes) = length bytes + (length bytes + 2) / 3.
Proof.
  assert (G : forall n bytes, length bytes <= n -> length (sextets bytes) = length bytes + (length bytes + 2) / 3).
  { clear. induction n as [|n IH]; intros bytes Hl; [destruct bytes; [reflexivity|cbn in Hl; lia]|].
    destruct bytes as [|a [|b [|c r]]]; try reflexivity. cbn [sextets length] in *. rewrite IH by lia.
    replace (S (S (S (length r))) + 2) with ((length r + 2) + 1 * 3) by lia. rewrite Nat.div_add by lia. lia. }
  exact (G (length bytes) bytes (Nat.le_refl _)).
Qed.

Lemma lines_from_length L cs : 0 < L -> forall k, k < L -> length (lines_from L k cs) = length cs + (k + length cs + L - 1) / L.
Proof.
  intros HL. induction cs as [|c cs IH]; intros k Hk; cbn [lines_from length].
  - destruct (Nat.eqb_spec k 0) as [->|Hz]; cbn [length].
    + rewrite Nat.div_small by lia. reflexivity.
    + replace (k + 0 + L - 1) with ((k - 1) + 1 * L) by lia. rewrite Nat.div_add by lia. rewrite Nat.div_small by lia. reflexivity.
  - destruct (Nat.eqb_spec (k + 1) L); cbn [length].
    + rewrite IH by lia. replace (k + S (length cs) + L - 1) with ((0 + length cs + L - 1) + 1 * L) by lia.
      rewrite Nat.div_add by lia. lia.
    + rewrite IH by lia. replace (k + S (length cs) + L - 1) with (k + 1 + length cs + L - 1) by lia. lia.
Qed.

(* C13: round trip without padding, with the buffer sizes that the library computes or
   larger ones *)
Theorem base64_round_trip ecfg dcfg bytes room room2 :
  Forall is_byte bytes -> e_pad ecfg = false -> d_url dcfg = e_url ecfg ->
  d_padding dcfg <> PadRequire -> (e_line ecfg = 0 \/ d_space dcfg = true) ->
  length (encoded ecfg bytes) <= room -> length bytes <= room2 ->
  exists t, encode ecfg bytes room = Some (inl t) /\ decode dcfg t room2 = Some (inl bytes).
Proof.
  intros Hb Hp Hu Hq Hs Hr Hr2. exists (encoded ecfg bytes). split.
  - rewrite base64_encode_exact by exact Hb. now replace (length (encoded ecfg bytes) <=? room) with true by lia.
  - destruct (base64_decode_exact dcfg (encoded ecfg bytes) room2 (encoded_bytes ecfg bytes Hb)) as (r & -> & H & _).
    f_equal. apply H. split; [|exact Hr2]. split; [exact Hb|]. split; [|congruence]. rewrite Hu.
    destruct (d_space dcfg) eqn:Es; [now apply encoded_no_space|].
    destruct Hs as [Hs|Hs]; [|discriminate]. unfold encoded, in_lines, without_space. now rewrite Hs, Hp.
Qed.

Example base64_round_trip_ex :
  let ecfg := EConfig true false 5 in let dcfg := DConfig true PadAllow true in let bytes := [251; 255; 191; 0]%Z in
  Forall is_byte bytes /\ d_padding dcfg <> PadRequire /\
  encode ecfg bytes 8 = Some (inl [45; 95; 45; 95; 65; 10; 65; 10]%Z) /\
  decode dcfg [45; 95; 45; 95; 65; 10; 65; 10]%Z 4 = Some (inl bytes).
Proof. cbv zeta. split; [repeat constructor; unfold is_byte; lia|]. split; [discriminate|]. split; vm_compute; reflexivity. Qed.

(* C14.  In full: *)
Definition base64_padded_round_trip : Prop :=
  forall ecfg dcfg bytes room, Forall is_byte bytes -> e_pad ecfg = true -> d_url dcfg = e_url ecfg ->
    d_padding dcfg <> PadReject -> (e_line ecfg = 0 \/ d_space dcfg = true) -> length bytes <= room ->
    decode dcfg (encoded ecfg bytes) room = Some (inl bytes).

(* Text with a padding character is never accepted, whatever the configuration. *)
Theorem base64_padding_rejected cfg t room : Forall is_byte t -> In 61%Z t ->
  exists r, decode cfg t room = Some (inr r).
Proof.
  intros Hb Hi. destruct (base64_decode_exact cfg t room Hb) as (r & -> & H & _).
  destruct r as [bytes|r]; [|now exists r]. exfalso.
  destruct (proj1 (H bytes) eq_refl) as ((Hb2 & E & _) & _).
  assert (Hi2 : In 61%Z (without_space (d_space cfg) t)).
  { unfold without_space. destruct (d_space cfg); [|exact Hi]. apply filter_In. split; [exact Hi|reflexivity]. }
  rewrite E in Hi2. unfold text in Hi2. rewrite app_nil_r in Hi2. apply in_map_iff in Hi2 as (v & Ev & Hv).
  pose proof (sextets_bound bytes Hb2) as B. rewrite Forall_forall in B. specialize (B v Hv).
  destruct (alphabet_plain (d_url cfg) v B) as [_ H61]. congruence.
Qed.

Example base64_padding_rejected_ex :
  (* "SGVsbG8=" *)
  decode (DConfig false PadAllow true) [83; 71; 86; 115; 98; 71; 56; 61]%Z 100 = Some (inr false) /\
  decode (DConfig false PadRequire true) [83; 71; 86; 115; 98; 71; 56; 61]%Z 100 = Some (inr false).
Proof. split; vm_compute; reflexivity. Qed.

Theorem base64_padded_round_trip_refuted : ~ base64_padded_round_trip.
Proof.
  intros H. specialize (H (EConfig false true 0) (DConfig false PadRequire true) [65]%Z 1).
  assert (E : decode (DConfig false PadRequire true) (encoded (EConfig false true 0) [65%Z]) 1 = Some (inr true)) by (vm_compute; reflexivity).
  rewrite E in H. discriminate H; try reflexivity; auto; [repeat constructor; unfold is_byte; lia|discriminate].
Qed.

(* It does hold where no padding character is needed; missing: all other lengths. *)
Theorem base64_padded_round_trip_partial ecfg dcfg bytes room :
  Forall is_byte bytes -> e_pad ecfg = true -> d_url dcfg = e_url ecfg ->
  (e_line ecfg = 0 \/ d_space dcfg = true) -> length bytes <= room -> length bytes mod 3 = 0 ->
  decode dcfg (encoded ecfg bytes) room = Some (inl bytes).
Proof.
  intros Hb Hp Hu Hs Hr Hm.
  destruct (base64_decode_exact dcfg (encoded ecfg bytes) room (encoded_bytes ecfg bytes Hb)) as (r & -> & H & _).
  f_equal. apply H. split; [|exact Hr]. split; [exact Hb|]. split; [|auto]. rewrite Hu.
  assert (E : encoded ecfg bytes = encoded (EConfig (e_url ecfg) false (e_line ecfg)) bytes).
  { unfold encoded, text, padding_size. cbn [e_url e_pad e_line]. rewrite Hp, Hm. reflexivity. }
  rewrite E. destruct (d_space dcfg) eqn:Es; [exact (encoded_no_space (EConfig (e_url ecfg) false (e_line ecfg)) bytes eq_refl Hb)|].
  destruct Hs as [Hs|Hs]; [|discriminate]. unfold encoded, in_lines, without_space. cbn [e_line e_url e_pad]. now rewrite Hs.
Qed.

Example base64_padded_round_trip_partial_ex :
  decode (DConfig false PadRequire true) (encoded (EConfig false true 3) [1; 2; 3; 254; 253; 252]%Z) 6 = Some (inl [1; 2; 3; 254; 253; 252]%Z).
Proof. vm_compute. reflexivity. Qed.

Lemma size_add W a b : (8 <= W)%Z -> (0 <= a < 2 ^ W)%Z -> (0 <= b)%Z -> (b < 2 ^ W)%Z ->
  exists v, try_int_add (ITy W false) (ITy W false) a b = Some ((a + b <? 2 ^ W)%Z, v) /\ ((a + b < 2 ^ W)%Z -> v = (a + b)%Z).
Proof.
  intros HW Ha Hb Hb2.
  assert (Ho : ity_ok (ITy W false)) by (unfold ity_ok; cbn; lia).
  assert (R : forall x, in_range (ITy W false) x <-> (0 <= x < 2 ^ W)%Z) by (intros x; unfold in_range, imin, imax, nvb; cbn [iwidth isigned]; lia).
  rewrite (try_int_add_spec (ITy W false) (ITy W false) a b) by (try assumption; apply R; lia).
  destruct (Z.ltb_spec (a + b) (2 ^ W)).
  - rewrite add_res_true by (apply R; lia). eexists. split; [reflexivity|auto].
  - rewrite add_res_false by (rewrite R; lia). eexists. split; [reflexivity|lia].
Qed.

Lemma text_length url pad bytes :
  length (text url pad bytes) = length bytes + (length bytes + 2) / 3 + (if pad then (3 - length bytes mod 3) mod 3 else 0).
Proof.
  unfold text, padding_size. rewrite app_length, map_length, sextets_length. destruct pad; [rewrite repeat_length|cbn [length]]; reflexivity.
Qed.

Lemma encoded_length cfg bytes : let n := length (text (e_url cfg) (e_pad cfg) bytes) in
  length (encoded cfg bytes) = if e_line cfg =? 0 then n else n + (n + e_line cfg - 1) / e_line cfg.
Proof.
  cbv zeta. unfold encoded, in_lines. destruct (Nat.eqb_spec (e_line cfg) 0); [reflexivity|].
  rewrite lines_from_length by lia. reflexivity.
Qed.

(* rounding up in the way of the implementation *)
Lemma round_up n d : 0 < d -> 
  Z.of_nat ((n + d - 1) / d) = (Z.of_nat n / Z.of_nat d + (if (0 <? Z.of_nat n - Z.of_nat n / Z.of_nat d * Z.of_nat d)%Z then 1 else 0))%Z.
Proof.
  intros Hd. rewrite Nat2Z.inj_div. replace (Z.of_nat (n + d - 1)) with (Z.of_nat n + Z.of_nat d - 1)%Z by lia.
  set (a := Z.of_nat n). set (b := Z.of_nat d). assert (Hb : (0 < b)%Z) by lia.
  pose proof (Z.div_mod a b ltac:(lia)) as E. pose proof (Z.mod_pos_bound a b Hb) as B.
  destruct (Z.ltb_spec 0 (a - a / b * b)).
  - symmetry. apply (Z.div_unique _ _ _ (a mod b - 1)); [left; lia|lia].
  - symmetry. apply (Z.div_unique _ _ _ (a mod b + b - 1)); [left; lia|lia].
Qed.

(* C15: encode_buffer_size is the exact size, or fails if that is not a value of size_t. *)
Theorem base64_encode_size W cfg bytes : (8 <= W)%Z ->
  (Z.of_nat (length bytes) < 2 ^ W)%Z -> (Z.of_nat (e_line cfg) < 2 ^ W)%Z ->
  encode_buffer_size W (Z.of_nat (length bytes)) cfg =
    Some (let n := Z.of_nat (length (encoded cfg bytes)) in if (n <? 2 ^ W)%Z then Some n else None).
Proof.
  intros HW Hn HL. cbv zeta. rewrite encoded_length, text_length. unfold encode_buffer_size.
  assert (P8 : (2 ^ 8 <= 2 ^ W)%Z) by (apply Z.pow_le_mono_r; lia). change (2 ^ 8)%Z with 256%Z in P8.
  assert (Uid : forall x, (0 <= x < 2 ^ W)%Z -> usize W x = x) by (intros; apply usize_id; unfold size_max; lia).
  set (m := length bytes) in *. set (N := Z.of_nat m) in *.
  assert (E1 : (0 <= N - N / 3 * 3 < 3)%Z) by Zdm.
  rewrite (Uid (N - N / 3 * 3)%Z) by lia.
  set (extra := if (0 <? N - N / 3 * 3)%Z then _ else _).
  assert (Ee : extra = Z.of_nat ((m + 2) / 3 + (if e_pad cfg then (3 - m mod 3) mod 3 else 0)) /\ (extra < 2 ^ W)%Z).
  { assert (Er : Z.of_nat ((m + 2) / 3) = (N / 3 + if (0 <? N - N / 3 * 3)%Z then 1 else 0)%Z).
    { replace (m + 2) with (m + 3 - 1) by lia. rewrite round_up by lia. reflexivity. }
    assert (Em : Z.of_nat (m mod 3) = (N - N / 3 * 3)%Z) by (rewrite Nat2Z.inj_mod; fold N; change (Z.of_nat 3) with 3%Z; Zdm).
    assert (E3 : (0 <= N / 3)%Z) by Zdm.
    unfold extra. rewrite Nat2Z.inj_add, Er. destruct (Z.ltb_spec 0 (N - N / 3 * 3)).
    - assert (N / 3 + 3 < 2 ^ W)%Z by Zdm. rewrite (Uid (N / 3 + 1)%Z) by lia. destruct (e_pad cfg).
      + rewrite (Uid (3 - _)%Z) by lia. rewrite Uid by lia.
        assert (E6 : Z.of_nat ((3 - m mod 3) mod 3) = (3 - (N - N / 3 * 3))%Z).
        { rewrite Nat.mod_small by lia. lia. }
        rewrite E6. lia.
      + lia.
    - assert (E6 : m mod 3 = 0) by lia. rewrite E6. destruct (e_pad cfg); cbn [Nat.sub Nat.modulo Nat.divmod snd]; Zdm. }
  clearbody extra. destruct Ee as [Ee Eb].
  set (n := m + (m + 2) / 3 + (if e_pad cfg then (3 - m mod 3) mod 3 else 0)) in *.
  assert (En : (N + extra)%Z = Z.of_nat n) by lia.
  destruct (size_add W N extra HW) as (v & -> & Hv); [lia..|]. cbn [obind fst snd]. rewrite En in *. clearbody n.
  destruct (Z.ltb_spec (Z.of_nat n) (2 ^ W)) as [Hlt|Hge].
  - rewrite (Hv Hlt). destruct (Nat.eqb_spec (e_line cfg) 0) as [E0|E0].
    + now replace (Z.of_nat n <? 2 ^ W)%Z with true by lia.
    + set (L := e_line cfg) in *. pose proof (round_up n L ltac:(lia)) as Er.
      set (a := Z.of_nat n) in *. set (b := Z.of_nat L) in *.
      pose proof (Z.div_mod a b ltac:(lia)) as Ed. pose proof (Z.mod_pos_bound a b ltac:(lia)) as Bd.
      assert (0 <= a / b <= a)%Z by (split; [apply Z.div_pos; lia|apply Z.div_le_upper_bound; nia]).
      rewrite (Uid (a - a / b * b)%Z) by lia.
      assert (Ei : (if (0 <? a - a / b * b)%Z then usize W (a / b + 1) else (a / b)%Z) = Z.of_nat ((n + L - 1) / L) /\ (Z.of_nat ((n + L - 1) / L) < 2 ^ W)%Z).
      { rewrite Er. destruct (Z.ltb_spec 0 (a - a / b * b)); [|lia].
        assert (a / b + 1 < 2 ^ W)%Z by (destruct (Z.eq_dec b 1) as [Eb1|]; [rewrite Eb1 in *; rewrite Z.div_1_r in *; lia|nia]).
        rewrite Uid by lia. lia. }
      destruct Ei as [-> Hi]. destruct (size_add W a (Z.of_nat ((n + L - 1) / L)) HW) as (v2 & -> & Hv2); [lia..|].
      cbn [obind fst snd]. replace (a + Z.of_nat ((n + L - 1) / L))%Z with (Z.of_nat (n + (n + L - 1) / L)) in * by lia.
      destruct (Z.ltb_spec (Z.of_nat (n + (n + L - 1) / L)) (2 ^ W)); [now rewrite Hv2|reflexivity].
  - destruct (e_line cfg =? 0).
    + now replace (Z.of_nat n <? 2 ^ W)%Z with false by lia.
    + now replace (Z.of_nat _ <? 2 ^ W)%Z with false by lia.
Qed.

Example base64_encode_size_ex :
  encode_buffer_size 64 5 (EConfig false true 4) = Some (Some 10%Z) /\
  length (encoded (EConfig false true 4) [72; 101; 108; 108; 111]%Z) = 10 /\
  encode_buffer_size 64 (2 ^ 64 - 1) (EConfig false true 4) = Some None.
Proof. split; [|split]; vm_compute; reflexivity. Qed.

(* C15: so a buffer of that size is enough, and the assertion in BasicEncoder::encode()
   holds. *)
Theorem base64_encode_fits W cfg bytes size room : (8 <= W)%Z -> Forall is_byte bytes ->
  (Z.of_nat (length bytes) < 2 ^ W)%Z -> (Z.of_nat (e_line cfg) < 2 ^ W)%Z ->
  encode_buffer_size W (Z.of_nat (length bytes)) cfg = Some (Some size) -> (size <= Z.of_nat room)%Z ->
  basic_encode cfg bytes room = Some (encoded cfg bytes).
Proof.
  intros HW Hb Hn HL Hs Hr. rewrite base64_encode_size in Hs by assumption. cbv zeta in Hs.
  unfold basic_encode. rewrite base64_encode_exact by exact Hb.
  destruct (_ <? 2 ^ W)%Z; [|discriminate]. injection Hs as <-.
  now replace (length (encoded cfg bytes) <=? room) with true by lia.
Qed.

Example base64_encode_fits_ex :
  encode_buffer_size 64 2 (EConfig true false 2) = Some (Some 5%Z) /\
  basic_encode (EConfig true false 2) [255; 254]%Z 5 = Some [95; 95; 10; 52; 10]%Z.
Proof. split; vm_compute; reflexivity. Qed.

(* C15: the decoder never produces more bytes than decode_buffer_size promises, not even
   for text that it does not accept. *)
Theorem base64_decode_size cfg t eoi room : Forall is_byte t ->
  exists b st t' out, decode_call cfg dec_init t eoi room = Some (b, st, t', out) /\
    (Z.of_nat (length out) <= decode_buffer_size (Z.of_nat (length t)))%Z /\ length out <= room.
Proof.
  intros Hb. destruct (decode_call_ok cfg dec_init t eoi room (dready_init cfg) Hb)
    as (b & st' & data' & out & E & _ & Hl & _ & Hw & _).
  exists b, st', data', out. split; [exact E|]. split; [|exact Hl].
  unfold weight in Hw at 2. cbn [de_out dec_init de_size] in Hw. unfold decode_buffer_size.
  destruct (Z.ltb_spec 0 (Z.of_nat (length t) - Z.of_nat (length t) / 4 * 4)); Zdm.
Qed.

Example base64_decode_size_ex :
  decode_buffer_size 8 = 6%Z /\
  decode_call (DConfig false PadAllow false) dec_init [83; 71; 86; 115; 98; 71; 56; 61]%Z true 6 =
    Some (false, Dec false 1 0 [27; 6; 108; 111]%Z, [61]%Z, [72; 101; 108; 108; 111]%Z).
Proof. split; vm_compute; reflexivity. Qed.

(* C15: so decodable text is decoded in a buffer of that size. *)
Theorem base64_decode_fits cfg t bytes room : Forall is_byte t ->
  (decode_buffer_size (Z.of_nat (length t)) <= Z.of_nat room)%Z -> decodes cfg t bytes ->
  basic_decode cfg t room = Some (Some bytes).
Proof.
  intros Hb Hr Hd. unfold basic_decode.
  destruct (base64_decode_exact cfg t room Hb) as (r & -> & H & _). cbn [obind].
  assert (Hlen : (Z.of_nat (length bytes) <= decode_buffer_size (Z.of_nat (length t)))%Z).
  { destruct (base64_decode_size cfg t true (length bytes) Hb) as (b & st & t' & out & E & Hs & _).
    destruct (base64_decode_exact cfg t (length bytes) Hb) as (r2 & E2 & H2 & _).
    unfold decode in E2. rewrite E in E2. cbn [obind] in E2. injection E2 as E2.
    rewrite (proj2 (H2 bytes)) in E2 by auto. destruct b; [|discriminate]. injection E2 as ->. exact Hs. }
  now rewrite (proj2 (H bytes)) by (split; [exact Hd|lia]).
Qed.

Example base64_decode_fits_ex :
  decode_buffer_size 7 = 5%Z /\ decodes (DConfig false PadAllow false) [83; 71; 86; 115; 98; 71; 56]%Z [72; 101; 108; 108; 111]%Z /\
  basic_decode (DConfig false PadAllow false) [83; 71; 86; 115; 98; 71; 56]%Z 5 = Some (Some [72; 101; 108; 108; 111]%Z).
Proof.
  split; [reflexivity|]. split; [|vm_compute; reflexivity].
  split; [repeat constructor; unfold is_byte; lia|]. split; [reflexivity|discriminate].
Qed.

(* C45: text that is not accepted is reported by means of an exception.  In full: *)
Definition base64_bad_text_reported : Prop :=
  forall cfg t room, Forall is_byte t -> (decode_buffer_size (Z.of_nat (length t)) <= Z.of_nat room)%Z ->
    (forall bytes, ~ decodes cfg t bytes) -> basic_decode cfg t room = Some None.

(* "AAAA!" in a buffer of decode_buffer_size(5) = 3 bytes: the assertion that the buffer
   space was sufficient fails. *)
Theorem base64_bad_text_reported_refuted : ~ base64_bad_text_reported.
Proof.
  intros H. specialize (H (DConfig false PadAllow false) [65; 65; 65; 65; 33]%Z 3).
  assert (E : basic_decode (DConfig false PadAllow false) [65; 65; 65; 65; 33]%Z 3 = None) by (vm_compute; reflexivity).
  rewrite E in H. discriminate H.
  - repeat constructor; unfold is_byte; lia.
  - vm_compute. discriminate.
  - intros bytes (Hb & Et & _). assert (Hi : In 33%Z (text false false bytes)) by (cbn [d_space d_url] in Et; rewrite <- Et; cbn; auto 10).
    unfold text in Hi. rewrite app_nil_r in Hi. apply in_map_iff in Hi as (v & Ev & Hv).
    pose proof (sextets_bound bytes Hb) as B. rewrite Forall_forall in B. specialize (B v Hv). revert Ev.
    unfold alphabet. repeat match goal with |- context [if ?b then _ else _] => destruct b eqn:? end; lia.
Qed.

(* With at least one byte more, it is; missing: buffers of exactly the promised size. *)
Theorem base64_bad_text_reported_partial cfg t room : Forall is_byte t ->
  (decode_buffer_size (Z.of_nat (length t)) < Z.of_nat room)%Z ->
  (forall bytes, ~ decodes cfg t bytes) -> basic_decode cfg t room = Some None.
Proof.
  intros Hb Hr Hn. unfold basic_decode.
  destruct (base64_decode_size cfg t true room Hb) as (b & st & t' & out & E & Hs & _).
  destruct (base64_decode_exact cfg t room Hb) as (r & E2 & H2 & _). rewrite E2. cbn [obind].
  unfold decode in E2. rewrite E in E2. cbn [obind] in E2. injection E2 as E2.
  destruct r as [bytes|i]; [exfalso; apply (Hn bytes); now apply H2|].
  destruct b; [discriminate|]. injection E2 as E2.
  destruct i; [lia|reflexivity].
Qed.

Example base64_bad_text_reported_partial_ex :
  basic_decode (DConfig false PadAllow false) [65; 65; 65; 65; 33]%Z 4 = Some None.
Proof. vm_compute. reflexivity. Qed.

(* C16: a sequence of calls of the incremental encoder.  In each step, a piece is added to
   the input that was not consumed by the previous call; whether it is the last piece and
   the size of the output buffer are given. *)
Fixpoint encode_steps (cfg : econfig) (st : enc) (pending : list Z) (steps : list (list Z * bool * nat)) : option (bool * list Z) :=
  match steps with
  | [] => Some (false, [])
  | (piece, eoi, room) :: steps =>
    let? (done, st', pending', out) := encode_call cfg st (pending ++ piece) eoi room in
    if done : bool then Some (true, out)
    else
      let? (done, out') := encode_steps cfg st' pending' steps in
      Some (done, out ++ out')
  end.

(* After the end of input has been declared, it stays declared and nothing is added. *)
Fixpoint feeding (ended : bool) (steps : list (list Z * bool * nat)) : Prop :=
  match steps with
  | [] => True
  | (piece, eoi, room) :: steps =>
    Forall is_byte piece /\ (ended = true -> piece = [] /\ eoi = true) /\ feeding eoi steps
  end.

Fixpoint pieces (steps : list (list Z * bool * nat)) : list Z :=
  match steps with [] => [] | (piece, _, _) :: steps => piece ++ pieces steps end.

(* total buffer space offered after the end of input was declared *)
Fixpoint final_room (steps : list (list Z * bool * nat)) : nat :=
  match steps with [] => 0 | (_, eoi, room) :: steps => (if eoi : bool then room else 0) + final_room steps end.

Definition ended_after (ended : bool) (steps : list (list Z * bool * nat)) : bool :=
  fold_left (fun _ s => snd (fst s)) steps ended.

Lemma feeding_ended steps : forall eoi, feeding eoi steps -> eoi = true -> pieces steps = [] /\ ended_after eoi steps = true.
Proof.
  induction steps as [|[[p e] r] steps IH]; intros eoi Hf He; [split; [reflexivity|exact He]|].
  destruct Hf as (_ & Hf & Hrest). destruct (Hf He) as [-> ->]. cbn [pieces app]. unfold ended_after. cbn [fold_left fst snd].
  apply (IH true Hrest eq_refl).
Qed.

Lemma Forall_suffix (P : Z -> Prop) l used rest : l = used ++ rest -> Forall P l -> Forall P rest.
Proof. intros -> H. now apply Forall_app in H. Qed.

Lemma encode_steps_ok cfg steps : forall st pending ended,
  eready cfg st -> Forall is_byte pending -> feeding ended steps ->
  exists done out, encode_steps cfg st pending steps = Some (done, out) /\
    if done : bool then ended_after ended steps = true /\ erest cfg st (pending ++ pieces steps) = out
    else
      forall future, (ended_after ended steps = true -> future = []) ->
        exists rest, erest cfg st (pending ++ pieces steps ++ future) = out ++ rest /\
          final_room steps <= length out /\ (steps <> [] -> ended_after ended steps = true -> rest <> []).
Proof.
  induction steps as [|[[piece eoi] room] steps IH]; intros st pending ended Hr Hp Hf.
  - exists false, []. split; [reflexivity|]. intros future _. exists (erest cfg st (pending ++ future)).
    split; [reflexivity|]. split; [cbn; lia|easy].
  - destruct Hf as (Hpc & Hend & Hf). cbn [encode_steps].
    destruct (encode_call_ok cfg st (pending ++ piece) eoi room Hr ltac:(apply Forall_app; auto))
      as (b & st' & data' & out & -> & Hr' & Hl & (used & Hu) & He & Hd & Hpr).
    cbn [obind pieces]. unfold ended_after. cbn [fold_left fst snd]. fold (ended_after eoi steps).
    assert (Hp' : Forall is_byte data') by (apply (Forall_suffix _ _ _ _ Hu); apply Forall_app; auto).
    destruct b.
    + exists true, out. split; [reflexivity|]. destruct (Hd eq_refl) as [He1 _].
      destruct (feeding_ended steps eoi Hf He1) as [Hp0 Ha]. split; [exact Ha|]. rewrite Hp0, app_nil_r.
      specialize (He [] (fun _ => eq_refl)). now rewrite !app_nil_r in He.
    + destruct (IH st' data' eoi Hr' Hp' Hf) as (done & out' & Es & H). rewrite Es. cbn [obind]. exists done, (out ++ out').
      split; [reflexivity|]. destruct done.
      * destruct H as [Ha H]. split; [exact Ha|].
        rewrite app_assoc, He; [now rewrite H|]. intros E. now apply (feeding_ended steps eoi).
      * intros future Hfut. destruct (H future Hfut) as (rest & Er & Hm & Hn). exists rest.
        replace (pending ++ (piece ++ pieces steps) ++ future) with ((pending ++ piece) ++ pieces steps ++ future) by (now rewrite !app_assoc).
        assert (Hz : eoi = true -> pieces steps ++ future = []).
        { intros E. destruct (feeding_ended steps eoi Hf E) as [-> Ha]. now apply Hfut. }
        rewrite He by exact Hz. rewrite Er, app_assoc. split; [reflexivity|].
        cbn [final_room]. rewrite app_length. split.
        { destruct eoi; [|lia]. destruct (Hpr eq_refl) as [[Hx Hy]|[Hx _]]; [lia|discriminate]. }
        intros _ Ha. destruct steps as [|s steps]; [|now apply Hn].
        unfold ended_after in Ha. cbn [fold_left] in Ha. cbn [encode_steps] in Es. injection Es as <-. cbn [pieces app] in *.
        destruct (Hpr eq_refl) as [[Hx Hy]|[Hx _]]; [|congruence]. specialize (Hy future Hz). rewrite Er in Hy. exact Hy.
Qed.

(* The output is that of encoding all of the input in one go; before the end, it is a
   beginning of it, and any total of buffer space after the end of input that is as large
   as the text is enough for completion. *)
Theorem base64_encode_chunks cfg steps : feeding false steps ->
  exists done out, encode_steps cfg enc_init [] steps = Some (done, out) /\
    (if done : bool then ended_after false steps = true /\ out = encoded cfg (pieces steps)
     else forall future, (ended_after false steps = true -> future = []) ->
       exists rest, encoded cfg (pieces steps ++ future) = out ++ rest) /\
    (steps <> [] -> ended_after false steps = true -> length (encoded cfg (pieces steps)) <= final_room steps -> done = true).
Proof.
  intros Hf. destruct (encode_steps_ok cfg steps enc_init [] false (eready_init cfg) (Forall_nil _) Hf) as (done & out & E & H).
  exists done, out. split; [exact E|]. destruct done.
  - destruct H as [Ha H]. cbn [app] in H. rewrite erest_init in H. auto.
  - split.
    + intros future Hfut. destruct (H future Hfut) as (rest & Er & _). cbn [app] in Er. rewrite erest_init in Er. now exists rest.
    + intros Hne Ha Hl. exfalso. destruct (H [] (fun _ => eq_refl)) as (rest & Er & Hm & Hn).
      cbn [app] in Er. rewrite app_nil_r, erest_init in Er. specialize (Hn Hne Ha).
      apply (f_equal (@length Z)) in Er. rewrite app_length in Er. destruct rest; [easy|]. cbn [length] in Er. lia.
Qed.

Example base64_encode_chunks_ex :
  let steps := [([72]%Z, false, 3); ([101; 108; 108]%Z, false, 2); ([], false, 0); ([111]%Z, true, 1); ([], true, 3); ([], true, 6)] in
  feeding false steps /\ ended_after false steps = true /\ pieces steps = [72; 101; 108; 108; 111]%Z /\
  encode_steps (EConfig false true 4) enc_init [] steps = Some (true, [83; 71; 86; 115; 10; 98; 71; 56; 61; 10]%Z).
Proof.
  cbv zeta. split; [|split; [reflexivity|split; [reflexivity|vm_compute; reflexivity]]].
  cbn [feeding]. repeat split; try discriminate; repeat constructor; unfold is_byte; lia.
Qed.

(* C44: the same for the incremental decoder *)
Fixpoint decode_steps (cfg : dconfig) (st : dec) (pending : list Z) (steps : list (list Z * bool * nat)) : option (bool * list Z) :=
  match steps with
  | [] => Some (false, [])
  | (piece, eoi, room) :: steps =>
    let? (done, st', pending', out) := decode_call cfg st (pending ++ piece) eoi room in
    if done : bool then Some (true, out)
    else
      let? (done, out') := decode_steps cfg st' pending' steps in
      Some (done, out ++ out')
  end.

Lemma decode_steps_ok cfg steps : forall st pending ended,
  dready cfg st -> Forall is_byte pending -> feeding ended steps ->
  exists done out, decode_steps cfg st pending steps = Some (done, out) /\
    if done : bool then ended_after ended steps = true /\ forall bytes, D cfg st (pending ++ pieces steps) bytes <-> bytes = out
    else
      forall future, (ended_after ended steps = true -> future = []) -> forall bytes,
        D cfg st (pending ++ pieces steps ++ future) bytes ->
        exists rest, bytes = out ++ rest /\ final_room steps <= length out /\
          (steps <> [] -> ended_after ended steps = true -> rest <> []).
Proof.
  induction steps as [|[[piece eoi] room] steps IH]; intros st pending ended Hr Hp Hf.
  - exists false, []. split; [reflexivity|]. intros future _ bytes Hd. exists bytes.
    split; [reflexivity|]. split; [cbn; lia|easy].
  - destruct Hf as (Hpc & Hend & Hf). cbn [decode_steps].
    destruct (decode_call_ok cfg st (pending ++ piece) eoi room Hr ltac:(apply Forall_app; auto))
      as (b & st' & data' & out & -> & Hr' & Hl & (used & Hu) & _ & Hd & He & Hpr).
    cbn [obind pieces]. unfold ended_after. cbn [fold_left fst snd]. fold (ended_after eoi steps).
    assert (Hp' : Forall is_byte data') by (apply (Forall_suffix _ _ _ _ Hu); apply Forall_app; auto).
    destruct b.
    + exists true, out. split; [reflexivity|]. destruct (Hd eq_refl) as [He1 _].
      destruct (feeding_ended steps eoi Hf He1) as [Hp0 Ha]. split; [exact Ha|]. rewrite Hp0, app_nil_r.
      intros bytes. specialize (He [] (fun _ => eq_refl) bytes). rewrite app_nil_r in He. rewrite He.
      split; [intros (? & -> & ->); now rewrite app_nil_r|intros ->; exists []; now rewrite app_nil_r].
    + destruct (IH st' data' eoi Hr' Hp' Hf) as (done & out' & Es & H). rewrite Es. cbn [obind]. exists done, (out ++ out').
      split; [reflexivity|]. destruct done.
      * destruct H as [Ha H]. split; [exact Ha|]. intros bytes.
        rewrite app_assoc, He; [|intros E; now apply (feeding_ended steps eoi)].
        split; [intros (by2 & -> & Hb2); now rewrite (proj1 (H by2) Hb2)|intros ->; exists out'; split; [reflexivity|now apply H]].
      * intros future Hfut bytes Hdec.
        replace (pending ++ (piece ++ pieces steps) ++ future) with ((pending ++ piece) ++ pieces steps ++ future) in Hdec by (now rewrite !app_assoc).
        assert (Hz : eoi = true -> pieces steps ++ future = []).
        { intros E. destruct (feeding_ended steps eoi Hf E) as [-> Ha]. now apply Hfut. }
        apply (He _ Hz) in Hdec as (by1 & -> & Hdec).
        destruct (H future Hfut by1 Hdec) as (rest & -> & Hm & Hn). exists rest.
        rewrite app_assoc. split; [reflexivity|].
        assert (Hfin : eoi = true -> length out = room /\ (forall t bytes, D cfg st' t bytes -> bytes <> [])).
        { intros E. destruct (Hpr eq_refl) as [Hx|[[Hx _]|Hx]]; [exact Hx|congruence|]. exfalso. exact (Hx _ Hz _ Hdec). }
        cbn [final_room]. rewrite app_length. split.
        { destruct eoi; [|lia]. destruct (Hfin eq_refl) as [Hx _]. lia. }
        intros _ Ha. destruct steps as [|s steps]; [|now apply Hn].
        unfold ended_after in Ha. cbn [fold_left] in Ha. cbn [decode_steps] in Es. injection Es as <-.
        destruct (Hfin Ha) as [_ Hx]. exact (Hx _ _ Hdec).
Qed.

Theorem base64_decode_chunks cfg steps : feeding false steps ->
  exists done out, decode_steps cfg dec_init [] steps = Some (done, out) /\
    (done = true -> ended_after false steps = true /\ decodes cfg (pieces steps) out) /\
    (forall future bytes, (ended_after false steps = true -> future = []) ->
       decodes cfg (pieces steps ++ future) bytes -> exists rest, bytes = out ++ rest) /\
    (forall bytes, decodes cfg (pieces steps) bytes -> steps <> [] -> ended_after false steps = true ->
       length bytes <= final_room steps -> done = true /\ out = bytes).
Proof.
  intros Hf. destruct (decode_steps_ok cfg steps dec_init [] false (dready_init cfg) (Forall_nil _) Hf) as (done & out & E & H).
  exists done, out. split; [exact E|]. destruct done.
  - destruct H as [Ha H]. cbn [app] in H. split; [intros _; split; [exact Ha|apply D_init; now apply H]|]. split.
    + intros future bytes Hfut Hd. rewrite (Hfut Ha), app_nil_r in Hd. exists []. rewrite app_nil_r. apply H. now apply D_init.
    + intros bytes Hd _ _ _. split; [reflexivity|]. symmetry. apply H. now apply D_init.
  - split; [discriminate|]. split.
    + intros future bytes Hfut Hd. destruct (H future Hfut bytes) as (rest & -> & _); [now apply D_init|]. now exists rest.
    + intros bytes Hd Hne Ha Hl. exfalso. destruct (H [] (fun _ => eq_refl) bytes) as (rest & -> & Hm & Hn); [rewrite app_nil_r; now apply D_init|].
      specialize (Hn Hne Ha). rewrite app_length in Hl. destruct rest; [easy|]. cbn [length] in Hl. lia.
Qed.

Example base64_decode_chunks_ex :
  let steps := [([83; 71; 86]%Z, false, 9); ([115; 10; 98]%Z, false, 2); ([71]%Z, false, 5); ([56]%Z, true, 1); ([], true, 5)] in
  feeding false steps /\ ended_after false steps = true /\
  decode_steps (DConfig false PadAllow true) dec_init [] steps = Some (true, [72; 101; 108; 108; 111]%Z).
Proof.
  cbv zeta. split; [|split; [reflexivity|vm_compute; reflexivity]].
  cbn [feeding]. repeat split; try discriminate; repeat constructor; unfold is_byte; lia.
Qed.

Print Assumptions base64_encode_exact.
Print Assumptions base64_decode_exact.
Print Assumptions base64_round_trip.
Print Assumptions base64_padding_rejected.
Print Assumptions base64_padded_round_trip_refuted.
Print Assumptions base64_padded_round_trip_partial.
Print Assumptions base64_encode_size.
Print Assumptions base64_encode_fits.
Print Assumptions base64_decode_size.
Print Assumptions base64_decode_fits.
Print Assumptions base64_bad_text_reported_refuted.
Print Assumptions base64_bad_text_reported_partial.
Print Assumptions base64_encode_chunks.
Print Assumptions base64_decode_chunks.
