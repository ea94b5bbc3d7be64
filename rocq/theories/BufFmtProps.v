(* Properties of the reinterpretation of layouts of pixels in memory *)
From Coq Require Import ZArith Bool List Lia Permutation.
From Verif Require Import CInt IntModel PixelBoxModel BufFmtModel BufFmtSpec BufFmtProofs BufFmtProofs2 BufFmtProofs3 BufFmtProofs4 BufFmtProofs5.
From Verif Require Import ArrLib.
Import ListNotations.
Open Scope Z_scope.

(* a common platform, and one with an unusual order of bytes in int and padding bits in long *)
Definition x86 : platform :=
  Platform (fun t => match t with Byte | Char => 1 | Short => 2 | Int => 4 | _ => 8 end%nat)
           (fun t => match t with Byte | Char => 8 | Short => 16 | Int => 32 | _ => 64 end)
           (fun t => match t with Byte | Char => [0] | Short => [0; 1] | Int => [0; 1; 2; 3] | _ => [0; 1; 2; 3; 4; 5; 6; 7] end%nat)
           (fun _ _ => 0).
Definition odd_platform : platform :=
  Platform (nbytes x86) (fun t => match t with Long => 60 | t => nbits x86 t end)
           (fun t => match t with Short => [1; 0] | Int => [2; 3; 0; 1] | t => perm x86 t end%nat)
           (fun _ l => nth 0 l 0).

Lemma x86_ok : platform_ok x86.
Proof.
  split; [reflexivity|]. split; [intros []; cbn; intros; lia|]. split.
  - intros []; cbn; lia.
  - intros []; (split; [repeat constructor; cbn; lia|]); cbn; (split; [reflexivity|]); intros q Hq; lia.
Qed.
Lemma odd_platform_ok : platform_ok odd_platform.
Proof.
  split; [reflexivity|]. split; [intros []; cbn; intros; lia|]. split.
  - intros []; cbn; lia.
  - intros []; (split; [repeat constructor; cbn; lia|]); cbn; (split; [reflexivity|]); intros q Hq; lia.
Qed.

(* C109: for an integer type with more than one byte, a byte order is reported exactly when
   there are no padding bits and the value of every word is what is obtained by taking its
   bytes in that order *)
Theorem byte_order_exact : forall pf t, platform_ok pf -> (2 <= nbytes pf t)%nat ->
  exists r, try_get_byte_order pf t = Some r /\
    forall e, r = Some e <->
      nbits pf t = 8 * Z.of_nat (nbytes pf t) /\
      forall bytes, length bytes = nbytes pf t -> word_value pf t bytes = assemble e 256 bytes.
Proof. intros pf t Hpf Ht. exact (byte_order_ok pf t Hpf Ht). Qed.

Example byte_order_ex : platform_ok odd_platform /\ (2 <= nbytes odd_platform Short)%nat /\
  try_get_byte_order x86 Int = Some (Some Little) /\ try_get_byte_order odd_platform Short = Some (Some Big) /\
  try_get_byte_order odd_platform Int = Some None /\ try_get_byte_order odd_platform Long = Some None.
Proof. repeat (apply conj; [first [exact odd_platform_ok | cbn; lia | vm_compute; reflexivity]|]). vm_compute; reflexivity. Qed.

(* C110: validity of formats is determined without overflow *)
Theorem format_valid_exact : forall pf, platform_ok pf ->
  (forall f, format_t (FInt f) -> exists b, int_valid pf f = Some b /\ (b = true <-> int_format_ok pf f)) /\
  (forall f, format_t (FPacked f) -> exists b, packed_valid pf f = Some b /\ (b = true <-> packed_format_ok pf f)) /\
  (forall f, format_t (FSub f) -> exists b, sub_valid pf f = Some b /\ (b = true <-> sub_format_ok pf f)).
Proof.
  intros pf Hpf. split; [|split].
  - intros f (H1 & H2 & _). now apply int_valid_ok.
  - intros f H. now apply packed_valid_ok.
  - intros f H. now apply sub_valid_ok.
Qed.

Definition rgb : channel_conf := Conf RGB false false false.
Definition rgba : channel_conf := Conf RGB true false false.
Definition gray : channel_conf := Conf Lum false false false.
Definition fields_565 : list bit_field := [Field 5 0; Field 6 0; Field 5 0] ++ repeat (Field 0 0) 5.
Definition fields_888 : list bit_field := [Field 8 0; Field 8 0; Field 8 0] ++ repeat (Field 0 0) 5.
Definition fields_bad : list bit_field := [Field 8 0; Field (2 ^ 31 - 1) 0; Field 8 0] ++ repeat (Field 0 0) 5.

Lemma in_fields (l : list bit_field) : forallb (fun g => (- 2 ^ 31 <=? fwidth g) && (fwidth g <? 2 ^ 31) && (- 2 ^ 31 <=? fgap g) && (fgap g <? 2 ^ 31)) l = true ->
  forall g, In g l -> int_t (fwidth g) /\ int_t (fgap g).
Proof. intros H g Hg. rewrite forallb_forall in H. specialize (H g Hg). unfold int_t. lia. Qed.

Ltac small := first [ reflexivity | lia | unfold int_t, conf_ok, channels; cbn; lia | discriminate ].

Example format_valid_ex :
  format_t (FPacked (PackedFormat Short 16 1 Big fields_565 rgb)) /\ format_t (FPacked (PackedFormat Int 32 1 Big fields_bad rgb)) /\
  packed_valid x86 (PackedFormat Short 16 1 Big fields_565 rgb) = Some true /\
  packed_valid x86 (PackedFormat Int 32 1 Big fields_bad rgb) = Some false /\
  int_valid x86 (IntFormat Short 16 (2 ^ 27) Big rgb) = Some false /\
  sub_valid x86 (SubFormat Byte 1 8 Big true gray) = Some true.
Proof.
  split; [|split; [|vm_compute; auto]];
    (split; [cbv; intuition congruence|]; split; [cbv; intuition congruence|]; split; [cbv; intuition congruence|]; split; [reflexivity|];
     apply in_fields; vm_compute; reflexivity).
Qed.

(* C111: reinterpretation as an integer format.  An exception is thrown exactly when the
   format is invalid; the result has the requested word type and is a valid format; the
   pixels are the same under the stated condition. *)
Theorem cast_to_int_partial : forall pf f wt, platform_ok pf -> format_t f ->
  exists r, cast_to_int pf f wt = Some r /\
    (r = Throws <-> ~ format_ok pf f) /\
    forall g, r = Yes g ->
      i_type g = wt /\ int_format_ok pf g /\ (good_cast pf f wt -> same_pixels pf f (FInt g)).
Proof. intros pf f wt Hpf Ht. exact (cast_to_int_ok pf f wt Hpf Ht). Qed.

(* from an integer format, the reinterpretation is never declined without reason *)
Theorem int_cast_complete : forall pf f, platform_ok pf -> format_t (FInt f) -> int_format_ok pf f ->
  cast_to_int pf (FInt f) (i_type f) = Some (Yes f) /\
  ((2 <= nbytes pf (i_type f))%nat ->
   (exists g, cast_to_int pf (FInt f) Byte = Some (Yes g)) <->
   exists e, nbits pf (i_type f) = i_bits f /\ i_bits f = 8 * Z.of_nat (nbytes pf (i_type f)) /\ native pf (i_type f) e /\
     (i_words f = 1 \/ i_order f = e)).
Proof.
  intros pf f Hpf Ht Hok. pose proof Ht as (B & W & Hc). pose proof Hok as (O1 & O2 & O3 & O4).
  destruct (int_valid_ok pf f B W) as (v & Ev & Hv). cbn [cast_to_int]. unfold int_to_int. rewrite Ev. cbn [obind].
  rewrite (proj2 Hv Hok). cbn [negb].
  assert (Hself : itype_eqb (i_type f) (i_type f) = true) by now apply itype_eqb_eq. rewrite Hself.
  split; [destruct f; reflexivity|]. intros H2.
  assert (Hne : itype_eqb Byte (i_type f) = false).
  { destruct (itype_eqb Byte (i_type f)) eqn:E; [|reflexivity]. apply itype_eqb_eq in E. rewrite <- E, (proj1 Hpf) in H2. lia. }
  rewrite Hne. cbn [itype_eqb negb]. pose proof (bpw_pos pf (i_type f) Hpf) as HB. pose proof (bpw_max pf (i_type f) Hpf) as HB'.
  replace (1 <? bytes_per_word pf (i_type f)) with true by (unfold bytes_per_word; lia).
  destruct (byte_order_ok pf (i_type f) Hpf H2) as (r & Er & Hr).
  destruct (all_bits_used (bytes_per_word pf (i_type f)) (i_bits f)) eqn:Ea; cbn [negb].
  - apply all_bits_ok in Ea; [|assumption..]. rewrite Er. cbn [obind]. destruct r as [e|].
    + destruct (proj1 (Hr e) eq_refl) as [Hb He].
      destruct ((1 <? i_words f) && negb (endian_eqb (i_order f) e)) eqn:Eo.
      * split; [intros (g & H); discriminate|]. intros (e' & _ & _ & He' & [H1|H1]); [rewrite H1 in Eo; discriminate|].
        assert (Some e = Some e') by (apply Hr; split; [exact Hb|exact He']). injection H as <-. rewrite H1 in Eo. destruct e; cbn in Eo; rewrite andb_false_r in Eo; discriminate.
      * rewrite imul_ok by nia. cbn [obind]. split; [|intros _; eexists; reflexivity]. intros _. exists e.
        split; [unfold bytes_per_word in Ea; lia|]. split; [exact Ea|]. split; [exact He|].
        destruct (endian_eqb (i_order f) e) eqn:E'; [right; now apply endian_eqb_eq|left]. cbn [negb] in Eo. lia.
    + split; [intros (g & H); discriminate|]. intros (e & Hb & Hb' & He & _).
      assert (None = Some e) by (apply Hr; split; [rewrite Hb; exact Hb'|exact He]). discriminate.
  - split; [intros (g & H); discriminate|]. intros (e & _ & H & _). assert (all_bits_used (bytes_per_word pf (i_type f)) (i_bits f) = true); [|congruence].
    apply all_bits_ok; assumption.
Qed.

Definition argb_int : int_format := IntFormat Short 16 2 Little rgba.
Example cast_to_int_ex :
  platform_ok x86 /\ format_t (FInt argb_int) /\ int_format_ok x86 argb_int /\ good_cast x86 (FInt argb_int) Byte /\
  cast_to_int x86 (FInt argb_int) Byte = Some (Yes (IntFormat Byte 8 4 Little rgba)) /\
  format_t (FPacked (PackedFormat Int 32 3 Big (repeat (Field 32 0) 8) rgb)) /\
  good_cast x86 (FPacked (PackedFormat Int 32 3 Big (repeat (Field 32 0) 8) rgb)) Byte /\
  cast_to_int x86 (FPacked (PackedFormat Int 32 3 Big (repeat (Field 32 0) 8) rgb)) Byte = Some (Yes (IntFormat Byte 8 4 Little rgb)).
Proof.
  split; [exact x86_ok|]. split; [cbv; intuition congruence|]. split; [cbv; intuition congruence|]. split; [exact I|]. split; [vm_compute; reflexivity|].
  split; [split; [cbv; intuition congruence|]; split; [cbv; intuition congruence|]; split; [cbv; intuition congruence|]; split; [reflexivity|]; apply in_fields; vm_compute; reflexivity|].
  split; [|vm_compute; reflexivity]. right. split; [reflexivity|]. cbn [itype_eqb p_type]. split; [cbn; lia|].
  intros e He. destruct e; [|discriminate]. specialize (He [1; 0; 0; 0] eq_refl). vm_compute in He. discriminate.
Qed.

(* A counterexample to the full statement: three 8-bit fields in three bytes, where red is in
   the first byte, becomes an integer format where red is in the last byte. *)
Definition packed_witness : packed_format := PackedFormat Byte 8 3 Big fields_888 rgb.
Definition memory_witness : memory := fun i => if i =? 0 then 200 else if i =? 1 then 100 else if i =? 2 then 50 else 0.
Lemma memory_witness_ok : memory_ok memory_witness.
Proof. intros i. unfold memory_witness. destruct (i =? 0), (i =? 1), (i =? 2); lia. Qed.

Lemma packed_witness_ok : format_t (FPacked packed_witness) /\ format_ok x86 (FPacked packed_witness).
Proof.
  split.
  - split; [cbv; intuition congruence|]. split; [cbv; intuition congruence|]. split; [cbv; intuition congruence|]. split; [reflexivity|]. apply in_fields; vm_compute; reflexivity.
  - cbn [format_ok]. unfold packed_format_ok. cbn -[Z.pow]. repeat (split; [lia|]). split; [|vm_compute; discriminate].
    intros g Hg. change (Pos.to_nat 3) with 3%nat in Hg. cbn [firstn In] in Hg. destruct Hg as [<-|[<-|[<-|[]]]]; cbn; lia.
Qed.

Theorem packed_cast_refuted : exists f g,
  format_t (FPacked f) /\ format_ok x86 (FPacked f) /\ cast_to_int x86 (FPacked f) Byte = Some (Yes g) /\
  ~ same_pixels x86 (FPacked f) (FInt g) /\
  packed_access x86 memory_witness f 1 0 0 0 = 200 /\ int_access x86 memory_witness g 1 0 0 0 = 50.
Proof.
  exists packed_witness, (IntFormat Byte 8 1 Big (conf_reverse rgb)).
  split; [apply packed_witness_ok|]. split; [apply packed_witness_ok|]. split; [vm_compute; reflexivity|].
  split; [|vm_compute; split; reflexivity].
  intros (_ & _ & H). destruct (H 0) as [_ H0]; [cbv; intuition congruence|].
  specialize (H0 memory_witness 1 0 0 memory_witness_ok ltac:(lia) ltac:(lia)). vm_compute in H0. discriminate.
Qed.

(* Another one: four 8-bit channels in a 32-bit word become channels of 32 bits *)
Definition sub_witness : sub_format := SubFormat Int 8 1 Big false rgba.
Theorem subword_cast_refuted : exists f g,
  format_t (FSub f) /\ format_ok x86 (FSub f) /\ cast_to_int x86 (FSub f) Byte = Some (Yes g) /\
  ~ same_pixels x86 (FSub f) (FInt g) /\ s_bits f = 8 /\ int_depth g = 32.
Proof.
  exists sub_witness, (IntFormat Byte 8 4 Little (conf_reverse rgba)).
  split; [cbv; intuition congruence|]. split; [cbv; intuition congruence|]. split; [vm_compute; reflexivity|].
  split; [|split; reflexivity].
  intros (_ & _ & H). destruct (H 0) as [H0 _]; [cbv; intuition congruence|]. vm_compute in H0. discriminate.
Qed.

(* C112: reinterpretation as a subword format *)
Theorem cast_to_sub_exact : forall pf f wt, platform_ok pf -> format_t f ->
  exists r, cast_to_sub pf f wt = Some r /\
    (r = Throws <-> ~ format_ok pf f) /\
    forall g, r = Yes g -> s_type g = wt /\ sub_format_ok pf g /\ same_pixels pf f (FSub g).
Proof. intros pf f wt Hpf Ht. exact (cast_to_sub_ok pf f wt Hpf Ht). Qed.

Theorem sub_cast_complete : forall pf f, platform_ok pf -> format_t (FSub f) -> sub_format_ok pf f ->
  cast_to_sub pf (FSub f) (s_type f) = Some (Yes f).
Proof.
  intros pf f Hpf Ht Hok. destruct (sub_valid_ok pf f Hpf Ht) as (v & Ev & Hv). cbn [cast_to_sub]. unfold sub_to_sub. rewrite Ev. cbn [obind].
  rewrite (proj2 Hv Hok). cbn [negb]. assert (Hself : itype_eqb (s_type f) (s_type f) = true) by now apply itype_eqb_eq. rewrite Hself. destruct f; reflexivity.
Qed.

Example cast_to_sub_ex :
  platform_ok x86 /\ format_t (FSub (SubFormat Short 1 16 Little false gray)) /\ sub_format_ok x86 (SubFormat Short 1 16 Little false gray) /\
  cast_to_sub x86 (FSub (SubFormat Short 1 16 Little false gray)) Byte = Some (Yes (SubFormat Byte 1 8 Little false gray)) /\
  cast_to_sub x86 (FSub (SubFormat Short 1 16 Big false gray)) Byte = Some No /\
  cast_to_sub x86 (FPacked (PackedFormat Int 32 1 Little fields_888 rgb)) Int = Some (Yes (SubFormat Int 8 1 Big false rgb)).
Proof. split; [exact x86_ok|]. split; [cbv; intuition congruence|]. split; [cbv; intuition congruence|]. vm_compute. auto. Qed.

(* C113: the PNG format selected for saving without conversion *)
Theorem match_save_partial : forall pf f w, platform_ok pf -> format_t f -> 0 <= w < 2 ^ 31 ->
  exists r, match_save pf f w = Some r /\
    (r = Throws <-> ~ format_ok pf f) /\
    forall g, r = Yes g -> good_cast pf f Byte -> png_matches pf f w g.
Proof. intros pf f w Hpf Ht Hw. exact (match_save_ok pf f w Hpf Ht Hw). Qed.

Theorem match_save_complete : forall pf w, platform_ok pf -> 0 <= w < 2 ^ 31 ->
  (forall f, format_t (FInt f) -> i_type f = Byte -> i_bits f = 8 -> i_words f = 1 \/ i_words f = 2 ->
     cspace (i_conf f) = RGB \/ cspace (i_conf f) = Lum -> exists g, match_save pf (FInt f) w = Some (Yes g)) /\
  (forall f, format_t (FSub f) -> s_type f = Byte -> s_bits f = 1 \/ s_bits f = 2 \/ s_bits f = 4 -> s_pixels f * s_bits f = 8 ->
     cspace (s_conf f) = Lum -> has_alpha (s_conf f) = false -> s_aligned f = true \/ w mod s_pixels f = 0 ->
     exists g, match_save pf (FSub f) w = Some (Yes g)).
Proof.
  intros pf w Hpf Hw. split.
  - intros f Ht E1 E2 E3 E4. assert (Hok : int_format_ok pf f) by (unfold int_format_ok; rewrite E1, E2, (byte_bits pf Hpf); lia).
    destruct (int_cast_complete pf f Hpf Ht Hok) as [H _]. rewrite E1 in H. unfold match_save. rewrite H. cbn [obind].
    rewrite E2. change (negb (8 =? 8)) with false. cbn iota.
    assert (Hc : 1 <= channels (i_conf f) <= 4) by (unfold channels; destruct E4 as [-> | ->], (has_alpha (i_conf f)); cbn; lia).
    rewrite num_channels_ok by apply Ht. cbn [obind].
    rewrite smul_ok by lia. cbn [obind]. rewrite smul_ok by nia. cbn [obind]. rewrite smul_ok by nia.
    destruct E3 as [-> | ->], E4 as [-> | ->]; cbn; eexists; reflexivity.
  - intros f Ht E1 E2 E3 E4 E5 E6. assert (Hn : channels (s_conf f) = 1) by (unfold channels; now rewrite E4, E5).
    assert (Hok : sub_format_ok pf f) by (unfold sub_format_ok; rewrite E1, Hn, (byte_bits pf Hpf); lia).
    pose proof (sub_cast_complete pf f Hpf Ht Hok) as H. rewrite E1 in H. 
    assert (Hno : cast_to_int pf (FSub f) Byte = Some No).
    { cbn [cast_to_int]. unfold sub_to_int. destruct (sub_valid_ok pf f Hpf Ht) as (v & Ev & Hv). rewrite Ev. cbn [obind]. rewrite (proj2 Hv Hok). cbn [negb].
      rewrite num_channels_ok by apply Ht. cbn [obind]. rewrite E1. cbn [itype_eqb]. replace (1 <? s_pixels f) with true by lia. now rewrite orb_true_r. }
    unfold match_save. rewrite Hno. cbn [obind]. rewrite H. cbn [obind].
    replace ((s_bits f =? 1) || (s_bits f =? 2) || (s_bits f =? 4)) with true by lia. cbn [negb]. rewrite E4, E5. cbn [negb].
    unfold idiv, irem. replace (s_bits f =? 0) with false by lia. cbn [obind].
    replace (Z.quot 8 (s_bits f)) with (s_pixels f) by (destruct E2 as [E|[E|E]]; rewrite E in *; [change (Z.quot 8 1) with 8|change (Z.quot 8 2) with 4|change (Z.quot 8 4) with 2]; lia).
    rewrite Z.eqb_refl. cbn [negb]. replace (s_pixels f =? 0) with false by lia. cbn [obind].
    rewrite Z.quot_div_nonneg, Z.rem_mod_nonneg by lia. destruct (w mod s_pixels f =? 0) eqn:Er; cbn [negb obind]; [eexists; reflexivity|].
    destruct E6 as [-> | E6]; [|lia]. cbn [negb].
    assert (w / s_pixels f <= w / 2) by (apply Z.div_le_compat_l; lia). assert (w / 2 < 2 ^ 30) by (apply Z.div_lt_upper_bound; lia).
    assert (0 <= w / s_pixels f) by (apply Z.div_pos; lia).
    rewrite iadd_spec. replace (in_rangeb t_int (w / s_pixels f + 1)) with true by (symmetry; apply rangeb_int; lia). cbn [obind]. eexists; reflexivity.
Qed.

Example match_save_ex :
  match_save x86 (FInt (IntFormat Short 16 1 Big (Conf RGB true false true))) 5 = Some (Yes (PngFormat 16 true true true true true false 40)) /\
  match_save x86 (FSub (SubFormat Byte 2 4 Little true gray)) 5 = Some (Yes (PngFormat 2 false false false false false true 2)) /\
  match_save x86 (FSub (SubFormat Byte 2 4 Little false gray)) 5 = Some No /\
  match_save x86 (FInt (IntFormat Short 16 2 Big rgb)) 5 = Some No.
Proof. vm_compute. auto. Qed.

Theorem match_save_refuted :
  (exists f g, format_t (FPacked f) /\ format_ok x86 (FPacked f) /\ match_save x86 (FPacked f) 1 = Some (Yes g) /\
     ~ png_matches x86 (FPacked f) 1 g /\
     packed_access x86 memory_witness f 1 0 0 0 = 200 /\ png_access memory_witness g 0 0 = 50) /\
  (exists f g, format_t (FSub f) /\ format_ok x86 (FSub f) /\ match_save x86 (FSub f) 1 = Some (Yes g) /\
     ~ png_matches x86 (FSub f) 1 g /\ s_bits f = 8 /\ g_depth g = 16).
Proof.
  split.
  - exists packed_witness, (PngFormat 8 true false true true false false 3).
    split; [apply packed_witness_ok|]. split; [apply packed_witness_ok|]. split; [vm_compute; reflexivity|].
    split; [|vm_compute; split; reflexivity].
    intros (_ & _ & H). destruct (H 0) as [_ H0]; [cbv; intuition congruence|].
    specialize (H0 memory_witness 0 0 memory_witness_ok ltac:(lia) ltac:(lia)). vm_compute in H0. discriminate.
  - exists (SubFormat Short 8 1 Big false (Conf Lum true false false)), (PngFormat 16 false true true true true false 4).
    split; [cbv; intuition congruence|]. split; [cbv; intuition congruence|]. split; [vm_compute; reflexivity|].
    split; [|split; reflexivity].
    intros (_ & _ & H). destruct (H 0) as [H0 _]; [cbv; intuition congruence|]. vm_compute in H0. discriminate.
Qed.

Print Assumptions byte_order_exact.
Print Assumptions format_valid_exact.
Print Assumptions cast_to_int_partial.
Print Assumptions int_cast_complete.
Print Assumptions packed_cast_refuted.
Print Assumptions subword_cast_refuted.
Print Assumptions cast_to_sub_exact.
Print Assumptions sub_cast_complete.
Print Assumptions match_save_partial.
Print Assumptions match_save_complete.
Print Assumptions match_save_refuted.
