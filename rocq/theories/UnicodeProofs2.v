(* Lemmas about the particular encodings. *)
From Coq Require Import ZArith List Bool Arith Lia.
From Coq Require Import ZifyBool.
From Verif Require Import ArrLib BufferModel UnicodeModel UnicodeSpec UnicodeProofs IntProofs4 Base64Proofs.
Import ListNotations.
Open Scope Z_scope.

Ltac dif := match goal with |- context [if ?b then _ else _] => lazymatch b with context [if _ then _ else _] => fail | _ => destruct b eqn:? end end.

Definition put (units : list Z) (used room : nat) : action :=
  if (length units <=? room)%nat then Put units used else Full.

Definition byte (v : Z) : Prop := 0 <= v < 256.

Definition valid_b (v : Z) : bool :=
  (0 <=? v) && (v <? 0x110000) && negb ((0xD800 <=? v) && (v <? 0xE000)) && negb (v =? 0xFFFE) && negb (v =? 0xFFFF).
Lemma valid_b_spec v : valid_b v = true <-> valid_cp v.
Proof. unfold valid_b, valid_cp. lia. Qed.

(* Forms of the encodings *)
Lemma utf8_1 c : c < 0x80 -> utf8 c = [c].
Proof. intros. unfold utf8. now replace (c <? 0x80) with true by lia. Qed.
Lemma utf8_2 c : 0x80 <= c < 0x800 -> utf8 c = [0xC0 + c / 64; 0x80 + c mod 64].
Proof.
  intros. unfold utf8. replace (c <? 0x80) with false by lia. replace (c <? 0x800) with true by lia.
  cbn [tail_bytes]. change (64 ^ Z.of_nat 0) with 1. now rewrite Z.div_1_r.
Qed.
Lemma utf8_3 c : 0x800 <= c < 0x10000 -> utf8 c = [0xE0 + c / 0x1000; 0x80 + (c / 64) mod 64; 0x80 + c mod 64].
Proof.
  intros. unfold utf8. replace (c <? 0x80) with false by lia. replace (c <? 0x800) with false by lia.
  replace (c <? 0x10000) with true by lia.
  cbn [tail_bytes]. change (64 ^ Z.of_nat 0) with 1. change (64 ^ Z.of_nat 1) with 64. change (64 ^ 2) with 0x1000.
  now rewrite Z.div_1_r.
Qed.
Lemma utf8_4 c : 0x10000 <= c ->
  utf8 c = [0xF0 + c / 0x40000; 0x80 + (c / 0x1000) mod 64; 0x80 + (c / 64) mod 64; 0x80 + c mod 64].
Proof.
  intros. unfold utf8. replace (c <? 0x80) with false by lia. replace (c <? 0x800) with false by lia.
  replace (c <? 0x10000) with false by lia.
  cbn [tail_bytes]. change (64 ^ Z.of_nat 0) with 1. change (64 ^ Z.of_nat 1) with 64. change (64 ^ Z.of_nat 2) with 0x1000.
  change (64 ^ 3) with 0x40000. now rewrite Z.div_1_r.
Qed.
Lemma utf16_1 c : c < 0x10000 -> utf16 c = [c].
Proof. intros. unfold utf16. now replace (c <? 0x10000) with true by lia. Qed.
Lemma utf16_2 c : 0x10000 <= c -> utf16 c = [0xD800 + (c - 0x10000) / 0x400; 0xDC00 + (c - 0x10000) mod 0x400].
Proof. intros. unfold utf16. now replace (c <? 0x10000) with false by lia. Qed.

(* Bit operations *)
Lemma land_63 v : Z.land v 0x3F = v mod 64.
Proof. change 0x3F with (Z.ones 6). now rewrite Z.land_ones by lia. Qed.

Lemma continuation_mod v : continuation v = continuation (v mod 256).
Proof.
  unfold continuation. f_equal. apply Z.bits_inj'. intros n Hn. rewrite !Z.land_spec.
  destruct (Z.ltb_spec n 8).
  - change 256 with (2 ^ 8). now rewrite Z.mod_pow2_bits_low by lia.
  - assert (Z.testbit 0xC0 n = false) as ->; [|now rewrite !andb_false_r].
    apply Z.bits_above_log2; [lia|]. change (Z.log2 0xC0) with 7. lia.
Qed.

Lemma continuation_all : forallb (fun n => let v := Z.of_nat n in
  Bool.eqb (continuation v) ((128 <=? v) && (v <? 192))) (seq 0 256) = true.
Proof. vm_compute. reflexivity. Qed.

Lemma continuation_spec v : continuation v = (128 <=? v mod 256) && (v mod 256 <? 192).
Proof.
  rewrite continuation_mod. pose proof (Z.mod_pos_bound v 256 ltac:(lia)).
  pose proof (proj1 (forallb_forall _ _) continuation_all (Z.to_nat (v mod 256))) as H0.
  cbv beta zeta in H0. rewrite Z2Nat.id in H0 by lia. apply eqb_prop. apply H0. apply in_seq. lia.
Qed.

Lemma value2 v1 v2 : utf8_value2 v1 v2 = v1 mod 32 * 64 + v2 mod 64.
Proof.
  unfold utf8_value2. rewrite land_63. change 0x1F with (Z.ones 5). rewrite Z.land_ones, Z.shiftl_mul_pow2 by lia.
  rewrite lor_add; [reflexivity|lia|]. apply Z.mod_pos_bound. lia.
Qed.
Lemma value3 v1 v2 v3 : utf8_value3 v1 v2 v3 = v1 mod 16 * 4096 + v2 mod 64 * 64 + v3 mod 64.
Proof.
  unfold utf8_value3. rewrite !land_63. change 0x0F with (Z.ones 4). rewrite Z.land_ones, !Z.shiftl_mul_pow2 by lia.
  rewrite (lor_add (v1 mod 2 ^ 4) (v2 mod 64 * 2 ^ 6) 12) by (pose proof (Z.mod_pos_bound v2 64); lia).
  replace (v1 mod 2 ^ 4 * 2 ^ 12 + v2 mod 64 * 2 ^ 6) with ((v1 mod 2 ^ 4 * 64 + v2 mod 64) * 2 ^ 6) by lia.
  rewrite lor_add by (pose proof (Z.mod_pos_bound v3 64); lia). change (2 ^ 4) with 16. lia.
Qed.
Lemma value4 v1 v2 v3 v4 : utf8_value4 v1 v2 v3 v4 = v1 mod 8 * 262144 + v2 mod 64 * 4096 + v3 mod 64 * 64 + v4 mod 64.
Proof.
  unfold utf8_value4. rewrite !land_63. change 0x07 with (Z.ones 3). rewrite Z.land_ones, !Z.shiftl_mul_pow2 by lia.
  rewrite (lor_add (v1 mod 2 ^ 3) (v2 mod 64 * 2 ^ 12) 18) by (pose proof (Z.mod_pos_bound v2 64); lia).
  replace (v1 mod 2 ^ 3 * 2 ^ 18 + v2 mod 64 * 2 ^ 12) with ((v1 mod 2 ^ 3 * 64 + v2 mod 64) * 2 ^ 12) by lia.
  rewrite lor_add by (pose proof (Z.mod_pos_bound v3 64); lia).
  replace ((v1 mod 2 ^ 3 * 64 + v2 mod 64) * 2 ^ 12 + v3 mod 64 * 2 ^ 6)
    with (((v1 mod 2 ^ 3 * 64 + v2 mod 64) * 64 + v3 mod 64) * 2 ^ 6) by lia.
  rewrite lor_add by (pose proof (Z.mod_pos_bound v4 64); lia). change (2 ^ 3) with 8. lia.
Qed.
Lemma value16 v1 v2 : 0xDC00 <= v2 < 0xE000 -> utf16_value v1 v2 = 0x10000 + (v1 - 0xD800) * 1024 + (v2 - 0xDC00).
Proof. intros. unfold utf16_value. rewrite Z.shiftl_mul_pow2, lor_add by lia. lia. Qed.

(* Reading one code point.  emit is given the code point and the number of units. *)
Definition read8 (emit : Z -> nat -> action) (t : list Z) : action :=
  match t with
  | v1 :: t1 =>
    if v1 <? 0x80 then emit v1 1%nat
    else if 0xC0 <=? v1 then
      if v1 <? 0xE0 then
        match t1 with
        | v2 :: _ =>
          if continuation v2 && (0x80 <=? utf8_value2 v1 v2) then emit (utf8_value2 v1 v2) 2%nat else Bad
        | [] => End
        end
      else if v1 <? 0xF0 then
        match t1 with
        | v2 :: v3 :: _ =>
          let v := utf8_value3 v1 v2 v3 in
          if continuation v2 && continuation v3 && (0x800 <=? v) && valid_b v then emit v 3%nat else Bad
        | _ => End
        end
      else if v1 <? 0xF8 then
        match t1 with
        | v2 :: v3 :: v4 :: _ =>
          let v := utf8_value4 v1 v2 v3 v4 in
          if continuation v2 && continuation v3 && continuation v4 && (0x10000 <=? v) && valid_b v then emit v 4%nat else Bad
        | _ => End
        end
      else Bad
    else Bad
  | [] => End
  end.

Definition read16 (emit : Z -> nat -> action) (t : list Z) : action :=
  match t with
  | v1 :: t1 =>
    if v1 <? 0x10000 then
      if valid_b v1 then emit v1 1%nat
      else if (0xD800 <=? v1) && (v1 <? 0xDC00) then
        match t1 with
        | v2 :: _ => if (0xDC00 <=? v2) && (v2 <? 0xE000) then emit (utf16_value v1 v2) 2%nat else Bad
        | [] => End
        end
      else Bad
    else Bad
  | [] => End
  end.

Definition read32 (emit : Z -> nat -> action) (t : list Z) : action :=
  match t with
  | v :: _ => if valid_b v then emit v 1%nat else Bad
  | [] => End
  end.

Lemma byte_cases v : byte v -> 0 <= v < 256. Proof. easy. Qed.

Lemma read8_good emit c t : valid_cp c -> read8 emit (utf8 c ++ t) = emit c (length (utf8 c)).
Proof.
  intros Hc. pose proof (proj2 (valid_b_spec c) Hc) as Hb. destruct Hc as (H1 & H2 & H3 & H4).
  destruct (Z.ltb_spec c 0x80).
  { rewrite utf8_1 by lia. cbn [app read8 length]. now replace (c <? 0x80) with true by lia. }
  assert (Hcont : forall x, continuation (0x80 + x mod 64) = true).
  { intros x. pose proof (Z.mod_pos_bound x 64 ltac:(lia)). rewrite continuation_spec. rewrite Z.mod_small by lia. lia. }
  destruct (Z.ltb_spec c 0x800).
  { rewrite utf8_2 by lia. cbn [app read8 length]. rewrite Hcont.
    assert (E : utf8_value2 (0xC0 + c / 64) (0x80 + c mod 64) = c) by (rewrite value2; Zdm).
    rewrite E. replace (0xC0 + c / 64 <? 0x80) with false by Zdm. replace (0xC0 <=? 0xC0 + c / 64) with true by Zdm.
    replace (0xC0 + c / 64 <? 0xE0) with true by Zdm. now replace (0x80 <=? c) with true by lia. }
  destruct (Z.ltb_spec c 0x10000).
  { rewrite utf8_3 by lia. cbn [app read8 length]. cbv zeta. rewrite !Hcont.
    assert (E : utf8_value3 (0xE0 + c / 0x1000) (0x80 + c / 64 mod 64) (0x80 + c mod 64) = c) by (rewrite value3; Zdm).
    rewrite E, Hb. replace (0xE0 + c / 0x1000 <? 0x80) with false by Zdm. replace (0xC0 <=? 0xE0 + c / 0x1000) with true by Zdm.
    replace (0xE0 + c / 0x1000 <? 0xE0) with false by Zdm. replace (0xE0 + c / 0x1000 <? 0xF0) with true by Zdm.
    now replace (0x800 <=? c) with true by lia. }
  rewrite utf8_4 by lia. cbn [app read8 length]. cbv zeta. rewrite !Hcont.
  assert (E : utf8_value4 (0xF0 + c / 0x40000) (0x80 + c / 0x1000 mod 64) (0x80 + c / 64 mod 64) (0x80 + c mod 64) = c) by (rewrite value4; Zdm).
  rewrite E, Hb. replace (0xF0 + c / 0x40000 <? 0x80) with false by Zdm. replace (0xC0 <=? 0xF0 + c / 0x40000) with true by Zdm.
  replace (0xF0 + c / 0x40000 <? 0xE0) with false by Zdm. replace (0xF0 + c / 0x40000 <? 0xF0) with false by Zdm.
  replace (0xF0 + c / 0x40000 <? 0xF8) with true by Zdm. now replace (0x10000 <=? c) with true by lia.
Qed.

Definition outcome_of (src : Z -> list Z) (read : (Z -> nat -> action) -> list Z -> action) (t : list Z) : Prop :=
  (exists c t', valid_cp c /\ t = src c ++ t') \/
  (t <> [] /\ forall emit, read emit t = Bad) \/ (forall emit, read emit t = End).

Lemma read8_cases t : Forall byte t -> outcome_of utf8 read8 t.
Proof.
  intros Hb. destruct t as [|v1 t1]; [right; right; reflexivity|].
  inversion Hb as [|? ? B1 Hb1]; subst. unfold byte in B1.
  unfold outcome_of. cbn [read8]. cbv zeta.
  destruct (Z.ltb_spec v1 0x80).
  { left. exists v1, t1. split; [unfold valid_cp; lia|]. now rewrite utf8_1 by lia. }
  destruct (Z.leb_spec 0xC0 v1); [|right; left; easy].
  destruct (Z.ltb_spec v1 0xE0).
  { destruct t1 as [|v2 t2]; [right; right; reflexivity|]. inversion Hb1 as [|? ? B2 Hb2]; subst. unfold byte in B2.
    destruct (continuation v2 && (0x80 <=? utf8_value2 v1 v2)) eqn:E; [|right; left; easy].
    left. rewrite continuation_spec, Z.mod_small, value2 in E by lia.
    exists (utf8_value2 v1 v2), t2. rewrite value2. split; [unfold valid_cp; Zdm|].
    rewrite utf8_2 by Zdm. cbn [app]. repeat apply (f_equal2 cons); [Zdm..|easy]. }
  destruct (Z.ltb_spec v1 0xF0).
  { destruct t1 as [|v2 [|v3 t2]]; [right; right; reflexivity..|].
    inversion Hb1 as [|? ? B2 Hb2]; subst. inversion Hb2 as [|? ? B3 Hb3]; subst. unfold byte in B2, B3.
    destruct (continuation v2 && continuation v3 && (0x800 <=? utf8_value3 v1 v2 v3) && valid_b (utf8_value3 v1 v2 v3)) eqn:E;
      [|right; left; easy].
    left. rewrite !andb_true_iff in E. destruct E as (((E1 & E2) & E3) & E4).
    rewrite continuation_spec, Z.mod_small in E1, E2 by lia. apply valid_b_spec in E4.
    rewrite value3 in *. eexists _, t2. split; [exact E4|].
    rewrite utf8_3 by Zdm. cbn [app]. repeat apply (f_equal2 cons); [Zdm..|easy]. }
  destruct (Z.ltb_spec v1 0xF8); [|right; left; easy].
  destruct t1 as [|v2 [|v3 [|v4 t2]]]; [right; right; reflexivity..|].
  inversion Hb1 as [|? ? B2 Hb2]; subst. inversion Hb2 as [|? ? B3 Hb3]; subst. inversion Hb3 as [|? ? B4 Hb4]; subst.
  unfold byte in B2, B3, B4.
  destruct (continuation v2 && continuation v3 && continuation v4 && (0x10000 <=? utf8_value4 v1 v2 v3 v4) && valid_b (utf8_value4 v1 v2 v3 v4)) eqn:E;
    [|right; left; easy].
  left. rewrite !andb_true_iff in E. destruct E as ((((E1 & E2) & E2') & E3) & E4).
  rewrite continuation_spec, Z.mod_small in E1, E2, E2' by lia. apply valid_b_spec in E4.
  rewrite value4 in *. eexists _, t2. split; [exact E4|].
  rewrite utf8_4 by lia. cbn [app]. repeat apply (f_equal2 cons); [Zdm..|easy].
Qed.

Lemma read8_more emit t q : read8 emit t <> End -> read8 emit (t ++ q) = read8 emit t.
Proof.
  destruct t as [|v1 [|v2 [|v3 [|v4 t]]]]; cbn [read8 app]; repeat (dif; try easy); easy.
Qed.

Definition nonneg (v : Z) : Prop := 0 <= v.

Lemma read16_good emit c t : valid_cp c -> read16 emit (utf16 c ++ t) = emit c (length (utf16 c)).
Proof.
  intros Hc. pose proof (proj2 (valid_b_spec c) Hc) as Hb. destruct Hc as (H1 & H2 & H3 & H4).
  destruct (Z.ltb_spec c 0x10000).
  { rewrite utf16_1 by lia. cbn [app read16 length]. replace (c <? 0x10000) with true by lia. now rewrite Hb. }
  rewrite utf16_2 by lia. cbn [app read16 length].
  replace (0xD800 + (c - 0x10000) / 1024 <? 0x10000) with true by Zdm.
  replace (valid_b _) with false by (unfold valid_b; Zdm).
  replace ((0xD800 <=? 0xD800 + (c - 0x10000) / 1024) && (0xD800 + (c - 0x10000) / 1024 <? 0xDC00)) with true by Zdm.
  replace ((0xDC00 <=? 0xDC00 + (c - 0x10000) mod 1024) && (0xDC00 + (c - 0x10000) mod 1024 <? 0xE000)) with true by Zdm.
  f_equal. rewrite value16 by Zdm. Zdm.
Qed.

Lemma read16_cases t : Forall nonneg t -> outcome_of utf16 read16 t.
Proof.
  intros Hb. destruct t as [|v1 t1]; [right; right; reflexivity|].
  inversion Hb as [|? ? B1 Hb1]; subst. unfold nonneg in B1.
  unfold outcome_of. cbn [read16]. cbv zeta.
  destruct (Z.ltb_spec v1 0x10000); [|right; left; easy].
  destruct (valid_b v1) eqn:Ev.
  { left. exists v1, t1. split; [now apply valid_b_spec|]. now rewrite utf16_1 by lia. }
  destruct ((0xD800 <=? v1) && (v1 <? 0xDC00)) eqn:E1; [|right; left; easy].
  destruct t1 as [|v2 t2]; [right; right; reflexivity|]. inversion Hb1 as [|? ? B2 Hb2]; subst. unfold nonneg in B2.
  destruct ((0xDC00 <=? v2) && (v2 <? 0xE000)) eqn:E2; [|right; left; easy].
  left. exists (utf16_value v1 v2), t2. rewrite value16 by lia. split; [unfold valid_cp; lia|].
  rewrite utf16_2 by lia. cbn [app]. repeat apply (f_equal2 cons); [Zdm..|easy].
Qed.

Lemma read16_more emit t q : read16 emit t <> End -> read16 emit (t ++ q) = read16 emit t.
Proof. destruct t as [|v1 [|v2 t]]; cbn [read16 app]; repeat (dif; try easy); easy. Qed.

Lemma read32_good emit c t : valid_cp c -> read32 emit (ucs c ++ t) = emit c (length (ucs c)).
Proof. intros Hc. apply valid_b_spec in Hc. cbn. now rewrite Hc. Qed.

Lemma read32_cases t : Forall nonneg t -> outcome_of ucs read32 t.
Proof.
  intros _. destruct t as [|v t]; [right; right; reflexivity|]. unfold outcome_of. cbn [read32].
  destruct (valid_b v) eqn:E; [left|right; left; easy]. exists v, t. split; [now apply valid_b_spec|easy].
Qed.

Lemma read32_more emit t q : read32 emit t <> End -> read32 emit (t ++ q) = read32 emit t.
Proof. destruct t; cbn [read32 app]; repeat (dif; try easy); easy. Qed.

(* The functions *)
Definition emitter (reduced : bool) (dst : Z -> list Z) (room : nat) (c : Z) (used : nat) : action :=
  if reduced && (0x10000 <=? c) then Bad else put (dst c) used room.

Lemma put_red v room n : v < 0x10000 -> forall reduced dst, emitter reduced dst room v n = put (dst v) n room.
Proof. intros. unfold emitter. now replace (0x10000 <=? v) with false by lia; rewrite andb_false_r. Qed.

Lemma decode_utf8_read reduced t room : decode_utf8_step reduced t room = read8 (emitter reduced ucs room) t.
Proof.
  destruct t as [|v1 t1]; [reflexivity|]. cbn [decode_utf8_step read8]. cbv zeta.
  destruct (Z.ltb_spec v1 0x80). { rewrite put_red by lia. reflexivity. }
  destruct (Z.leb_spec 0xC0 v1); [|easy].
  destruct (Z.ltb_spec v1 0xE0).
  { destruct t1 as [|v2 t2]; [easy|]. destruct (continuation v2); [cbn [andb]|easy]. dif; [|easy].
    rewrite put_red by (rewrite value2; Zdm). reflexivity. }
  destruct (Z.ltb_spec v1 0xF0).
  { destruct t1 as [|v2 [|v3 t2]]; [easy..|]. destruct (continuation v2 && continuation v3); [cbn [andb]|easy].
    set (v := utf8_value3 v1 v2 v3). assert (0 <= v < 0x10000) by (unfold v; rewrite value3; Zdm).
    rewrite put_red by lia. unfold valid_b. cbn [length ucs put].
    destruct (Z.leb_spec 0x800 v); cbn [andb]; [|easy]. destruct (Z.ltb_spec v 0xD800); cbn [orb].
    - replace (v <? 0xFFFE) with true by lia.
      match goal with |- _ = (if ?b then _ else _) => replace b with true by lia end. reflexivity.
    - destruct (Z.leb_spec 0xE000 v); cbn [orb].
      + destruct (Z.ltb_spec v 0xFFFE);
          match goal with |- _ = (if ?b then _ else _) => first [replace b with true by lia|replace b with false by lia] end; reflexivity.
      + match goal with |- _ = (if ?b then _ else _) => replace b with false by lia end; reflexivity. }
  destruct (Z.ltb_spec v1 0xF8); [|easy].
  destruct t1 as [|v2 [|v3 [|v4 t2]]]; [easy..|]. destruct (continuation v2 && continuation v3 && continuation v4); [cbn [andb]|easy].
  set (v := utf8_value4 v1 v2 v3 v4). unfold emitter, valid_b. cbn [length ucs put].
  destruct (Z.leb_spec 0x10000 v); cbn [andb]; [|easy].
  destruct (Z.ltb_spec v 0x110000);
    match goal with |- _ = (if ?b then _ else _) => first [replace b with true by lia|replace b with false by lia] end; [|reflexivity].
  destruct reduced; reflexivity.
Qed.

Lemma utf8_to_utf16_read t room : utf8_to_utf16_step t room = read8 (emitter false utf16 room) t.
Proof.
  destruct t as [|v1 t1]; [reflexivity|]. cbn [utf8_to_utf16_step read8]. cbv zeta.
  destruct (Z.ltb_spec v1 0x80). { rewrite put_red, utf16_1 by lia. reflexivity. }
  destruct (Z.leb_spec 0xC0 v1); [|easy].
  destruct (Z.ltb_spec v1 0xE0).
  { destruct t1 as [|v2 t2]; [easy|]. destruct (continuation v2); [cbn [andb]|easy]. dif; [|easy].
    rewrite put_red, utf16_1 by (rewrite value2; Zdm). reflexivity. }
  destruct (Z.ltb_spec v1 0xF0).
  { destruct t1 as [|v2 [|v3 t2]]; [easy..|]. destruct (continuation v2 && continuation v3); [cbn [andb]|easy].
    set (v := utf8_value3 v1 v2 v3). assert (0 <= v < 0x10000) by (unfold v; rewrite value3; Zdm).
    rewrite put_red, utf16_1 by lia. unfold valid_b. cbn [length ucs put].
    destruct (Z.leb_spec 0x800 v); cbn [andb]; [|easy]. destruct (Z.ltb_spec v 0xD800); cbn [orb].
    - replace (v <? 0xFFFE) with true by lia.
      match goal with |- _ = (if ?b then _ else _) => replace b with true by lia end. reflexivity.
    - destruct (Z.leb_spec 0xE000 v); cbn [orb].
      + destruct (Z.ltb_spec v 0xFFFE);
          match goal with |- _ = (if ?b then _ else _) => first [replace b with true by lia|replace b with false by lia] end; reflexivity.
      + match goal with |- _ = (if ?b then _ else _) => replace b with false by lia end; reflexivity. }
  destruct (Z.ltb_spec v1 0xF8); [|easy].
  destruct t1 as [|v2 [|v3 [|v4 t2]]]; [easy..|]. destruct (continuation v2 && continuation v3 && continuation v4); [cbn [andb]|easy].
  set (v := utf8_value4 v1 v2 v3 v4). unfold emitter, valid_b. cbn [length andb].
  destruct (Z.leb_spec 0x10000 v); cbn [andb]; [|easy]. rewrite utf16_2 by lia.
  destruct (Z.ltb_spec v 0x110000);
    match goal with |- _ = (if ?b then _ else _) => first [replace b with true by lia|replace b with false by lia] end; reflexivity.
Qed.

Lemma decode_utf16_read reduced t room : Forall nonneg t -> decode_utf16_step reduced t room = read16 (emitter reduced ucs room) t.
Proof.
  intros Hb. destruct t as [|v1 t1]; [reflexivity|]. inversion Hb as [|? ? B1 Hb1]; subst. unfold nonneg in B1.
  cbn [decode_utf16_step read16]. cbv zeta.
  destruct (Z.ltb_spec v1 0x10000); [|easy].
  destruct ((v1 <? 0xD800) || (0xE000 <=? v1)) eqn:E.
  - replace (v1 <? 0xFFFE) with (valid_b v1) by (unfold valid_b; lia). rewrite put_red by lia. dif; [reflexivity|].
    now replace ((0xD800 <=? v1) && (v1 <? 0xDC00)) with false by lia.
  - replace (valid_b v1) with false by (unfold valid_b; lia).
    replace ((0xD800 <=? v1) && (v1 <? 0xDC00)) with (v1 <? 0xDC00) by lia. dif; [|easy].
    destruct t1 as [|v2 t2]; [easy|]. dif; [|easy]. unfold emitter. rewrite value16 by lia.
    replace (0x10000 <=? _) with true by lia. rewrite andb_true_r. now destruct reduced.
Qed.

Lemma utf16_to_utf8_read t room : Forall nonneg t -> utf16_to_utf8_step t room = read16 (emitter false utf8 room) t.
Proof.
  intros Hb. destruct t as [|v1 t1]; [reflexivity|]. inversion Hb as [|? ? B1 Hb1]; subst. unfold nonneg in B1.
  cbn [utf16_to_utf8_step read16]. cbv zeta.
  destruct (Z.ltb_spec v1 0x80).
  { replace (v1 <? 0x10000) with true by lia. replace (valid_b v1) with true by (unfold valid_b; lia).
    rewrite put_red, utf8_1 by lia. reflexivity. }
  destruct (Z.ltb_spec v1 0x800).
  { replace (v1 <? 0x10000) with true by lia. replace (valid_b v1) with true by (unfold valid_b; lia).
    rewrite put_red, utf8_2 by lia. reflexivity. }
  destruct (Z.ltb_spec v1 0x10000); [|easy].
  destruct ((v1 <? 0xD800) || (0xE000 <=? v1)) eqn:E.
  - replace (v1 <? 0xFFFE) with (valid_b v1) by (unfold valid_b; lia). rewrite put_red, utf8_3 by lia. dif; [reflexivity|].
    now replace ((0xD800 <=? v1) && (v1 <? 0xDC00)) with false by lia.
  - replace (valid_b v1) with false by (unfold valid_b; lia).
    replace ((0xD800 <=? v1) && (v1 <? 0xDC00)) with (v1 <? 0xDC00) by lia. dif; [|easy].
    destruct t1 as [|v2 t2]; [easy|]. dif; [|easy]. unfold emitter. rewrite value16 by lia.
    rewrite utf8_4 by lia. reflexivity.
Qed.

Lemma encode_utf8_read t room : Forall nonneg t -> encode_utf8_step t room = read32 (emitter false utf8 room) t.
Proof.
  intros Hb. destruct t as [|v t1]; [reflexivity|]. inversion Hb as [|? ? B1 Hb1]; subst. unfold nonneg in B1.
  cbn [encode_utf8_step read32]. unfold emitter. cbn [andb].
  destruct (Z.ltb_spec v 0x80).
  { replace (valid_b v) with true by (unfold valid_b; lia). rewrite utf8_1 by lia. reflexivity. }
  destruct (Z.ltb_spec v 0x800).
  { replace (valid_b v) with true by (unfold valid_b; lia). rewrite utf8_2 by lia. reflexivity. }
  destruct (Z.ltb_spec v 0xFFFE).
  { replace ((v <? 0xD800) || (0xE000 <=? v)) with (valid_b v) by (unfold valid_b; lia). rewrite utf8_3 by lia. reflexivity. }
  destruct (Z.leb_spec 0x10000 v).
  - replace (v <? 0x110000) with (valid_b v) by (unfold valid_b; lia). rewrite utf8_4 by lia. reflexivity.
  - now replace (valid_b v) with false by (unfold valid_b; lia).
Qed.

Lemma encode_utf16_read t room : Forall nonneg t -> encode_utf16_step t room = read32 (emitter false utf16 room) t.
Proof.
  intros Hb. destruct t as [|v t1]; [reflexivity|]. inversion Hb as [|? ? B1 Hb1]; subst. unfold nonneg in B1.
  cbn [encode_utf16_step read32]. unfold emitter. cbn [andb]. cbv zeta.
  destruct (Z.ltb_spec v 0xFFFE).
  { replace ((v <? 0xD800) || (0xE000 <=? v)) with (valid_b v) by (unfold valid_b; lia). rewrite utf16_1 by lia. reflexivity. }
  destruct (Z.leb_spec 0x10000 v).
  - replace (v <? 0x110000) with (valid_b v) by (unfold valid_b; lia). rewrite utf16_2 by lia. reflexivity.
  - now replace (valid_b v) with false by (unfold valid_b; lia).
Qed.

(* The requirements of the general lemmas *)
Section Req.
Context (src dst : Z -> list Z) (read : (Z -> nat -> action) -> list Z -> action) (okunit : Z -> Prop)
        (step : list Z -> nat -> action) (reduced : bool)
        (Hgood : forall emit c t, valid_cp c -> read emit (src c ++ t) = emit c (length (src c)))
        (Hcases : forall t, Forall okunit t -> outcome_of src read t)
        (Hread_more : forall emit t q, read emit t <> End -> read emit (t ++ q) = read emit t)
        (Hread : forall t room, Forall okunit t -> step t room = read (emitter reduced dst room) t)
        (Hsrc1 : forall c, valid_cp c -> (1 <= length (src c))%nat).

Lemma req_good t c t' : Forall okunit t -> valid_for reduced c -> t = src c ++ t' ->
  forall room, step t room = put (dst c) (length (src c)) room.
Proof.
  intros Ht [Hc Hr] -> room. rewrite Hread by easy. rewrite Hgood by easy. unfold emitter.
  destruct reduced; [|easy]. specialize (Hr eq_refl). now replace (0x10000 <=? c) with false by lia.
Qed.

Lemma req_stop t a : Forall okunit t -> (forall room, step t room = a) -> a = Bad \/ a = End -> stuck (valid_for reduced) src t.
Proof.
  intros Ht Ha Hn c t' Hc E. pose proof (req_good t c t' Ht Hc E (length (dst c))) as H.
  rewrite Ha in H. unfold put in H. rewrite Nat.leb_refl in H. destruct Hn; congruence.
Qed.

Lemma req_step t : Forall okunit t -> good_step (valid_for reduced) src dst step t \/ stop_step (valid_for reduced) src step t.
Proof.
  intros Ht. destruct (Hcases t Ht) as [(c & t' & Hc & E)|[[Hn H]|H]].
  - destruct (reduced && (0x10000 <=? c)) eqn:Er.
    + right. assert (H : forall room, step t room = Bad).
      { intros room. rewrite Hread, E by easy. rewrite Hgood by easy. unfold emitter. now rewrite Er. }
      split; [now apply (req_stop t Bad); auto|]. right. split; [|easy].
      intros ->. pose proof (Hsrc1 c Hc). destruct (src c); [cbn in *; lia|discriminate].
    + left. exists c, t'. assert (Hv : valid_for reduced c). { split; [easy|]. intros ->. cbn in Er. lia. }
      split; [easy|]. split; [easy|]. intros room. now apply (req_good t c t').
  - right. assert (H' : forall room, step t room = Bad) by (intros; rewrite Hread by easy; apply H).
    split; [now apply (req_stop t Bad); auto|]. right. easy.
  - right. assert (H' : forall room, step t room = End) by (intros; rewrite Hread by easy; apply H).
    split; [now apply (req_stop t End); auto|]. now left.
Qed.

Lemma req_prefix c c' t t' : valid_for reduced c -> valid_for reduced c' -> src c ++ t = src c' ++ t' -> c = c' /\ t = t'.
Proof.
  intros [Hc _] [Hc' _] E. pose proof (Hgood (fun v n => Put [v] n) c t Hc) as H. rewrite E, Hgood in H by easy.
  injection H as -> _. split; [easy|]. now apply app_inv_head in E.
Qed.

Lemma req_more t q room : Forall okunit (t ++ q) -> step t room <> End -> step (t ++ q) room = step t room.
Proof.
  intros H Hn. rewrite !Hread in * by (try easy; now apply Forall_app in H). now apply Hread_more.
Qed.
End Req.

Lemma utf8_len c : (1 <= length (utf8 c) <= 4)%nat.
Proof. unfold utf8. repeat dif; cbn; lia. Qed.
Lemma utf16_len c : (1 <= length (utf16 c) <= 4)%nat.
Proof. unfold utf16. repeat dif; cbn; lia. Qed.
Lemma ucs_len c : (1 <= length (ucs c) <= 4)%nat.
Proof. cbn; lia. Qed.

(* Resynchronization *)
Lemma resync8_ok reduced t : (resync_utf8 t <= length t)%nat /\
  forall i, (i < resync_utf8 t)%nat -> stuck (valid_for reduced) utf8 (skipn i t).
Proof.
  induction t as [|v t [IH1 IH2]]; [cbn; split; [lia|intros; lia]|]. cbn [resync_utf8 length]. dif.
  - split; [lia|intros; lia].
  - split; [lia|]. intros [|i] Hi; [|apply IH2; lia]. cbn [skipn]. intros c t' [Hc _] E.
    unfold valid_cp in Hc. unfold utf8 in E. change (64 ^ 2) with 0x1000 in E. change (64 ^ 3) with 0x40000 in E.
    repeat match type of E with context [if ?b then _ else _] => destruct b eqn:? end;
      apply (f_equal (hd 0)) in E; cbn [app hd] in E; Zdm.
Qed.

Lemma resync16_ok reduced t : (resync_utf16 t <= length t)%nat /\
  forall i, (i < resync_utf16 t)%nat -> stuck (valid_for reduced) utf16 (skipn i t).
Proof.
  induction t as [|v t [IH1 IH2]]; [cbn; split; [lia|intros; lia]|]. cbn [resync_utf16 length]. dif.
  - split; [lia|intros; lia].
  - split; [lia|]. intros [|i] Hi; [|apply IH2; lia]. cbn [skipn]. intros c t' [Hc _] E.
    unfold valid_cp in Hc. unfold utf16 in E.
    repeat match type of E with context [if ?b then _ else _] => destruct b eqn:? end;
      apply (f_equal (hd 0)) in E; cbn [app hd] in E; Zdm.
Qed.
