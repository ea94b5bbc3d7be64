(* C223: pixels as sequences of words in MultPixelFormat *)
From Coq Require Import ZArith Bool List Lia Permutation Sorted.
From Verif Require Import MultFieldModel MultFieldProps MultWordsModel ArrLib.
Import ListNotations.
Local Open Scope Z_scope.

(* the words of a compound value, the least significant one first for little-endian order, and last for big-endian order *)
Definition word_of (b : Z) (d : nat) (little : bool) (compound : Z) (i : nat) : Z :=
  compound / 2 ^ (b * Z.of_nat (if little then i else d - 1 - i)) mod 2 ^ b.

Section Words.
Context (b : Z) (d : nat) (le : bool) (s : fspec).
Let f := Mpf b d le s.
Let mp (i : nat) : nat := if le then i else (d - 1 - i)%nat.
Context (B : 0 < b) (K : Z.of_nat d * b <= fs_bits s).

Lemma map_right : forall i, (i < d)%nat -> map_word_index f i = Some (mp i) /\ shift_ok f (Z.of_nat (mp i) * b) = true.
Proof using B K.
  intros i I. split.
  - unfold map_word_index. cbn [f words_per_pixel little]. destruct (Nat.ltb_spec i d); [reflexivity|lia].
  - unfold shift_ok. cbn [f m_field_spec]. apply andb_true_intro. rewrite Z.leb_le, Z.ltb_lt.
    assert (mp i < d)%nat by (unfold mp; destruct le; lia). nia.
Qed.

Lemma word_bits : forall c j, Z.land (Z.shiftr c (Z.of_nat j * b)) (Z.ones b) = c / 2 ^ (b * Z.of_nat j) mod 2 ^ b.
Proof using B K.
  intros c j. rewrite Z.land_ones by lia. rewrite Z.shiftr_div_pow2 by nia. rewrite (Z.mul_comm b). reflexivity.
Qed.

Lemma split_right : forall c target n i buf, (i + n = d)%nat -> (target + d <= length buf)%nat ->
  exists buf', split_words f n i buf target c = Some buf' /\ length buf' = length buf /\
  forall k, nth_error buf' k = if Nat.leb (target + i) k && Nat.ltb k (target + d) then Some (word_of b d le c (k - target)) else nth_error buf k.
Proof using B K.
  intros c target. induction n as [|n IH]; intros i buf I L.
  - exists buf. split; [reflexivity|]. split; [reflexivity|]. intros k.
    destruct (Nat.leb_spec (target + i) k); [|reflexivity]. destruct (Nat.ltb_spec k (target + d)); [lia|reflexivity].
  - cbn [split_words]. destruct (map_right i ltac:(lia)) as (M & S0). rewrite M. cbn [obind].
    change (bits_per_word f) with b. rewrite S0. rewrite word_bits.
    destruct (set_nth buf (target + i) (c / 2 ^ (b * Z.of_nat (mp i)) mod 2 ^ b)) as [buf1|] eqn:E.
    2:{ rewrite set_nth_some in E by lia. discriminate. }
    cbn [obind]. pose proof (set_nth_length _ _ _ _ E) as L1.
    destruct (IH (S i) buf1 ltac:(lia) ltac:(lia)) as (buf' & E' & L' & N). exists buf'. split; [exact E'|]. split; [congruence|].
    intros k. rewrite N. rewrite (nth_error_set_nth _ _ _ _ k E).
    destruct (Nat.eqb_spec k (target + i)) as [->|Ne].
    + destruct (Nat.leb_spec (target + S i) (target + i)); [lia|]. destruct (Nat.leb_spec (target + i) (target + i)); [|lia].
      destruct (Nat.ltb_spec (target + i) (target + d)); [|lia]. cbn [andb]. replace (target + i - target)%nat with i by lia. reflexivity.
    + destruct (Nat.leb_spec (target + S i) k), (Nat.leb_spec (target + i) k); try lia; reflexivity.
Qed.

Lemma assemble_right : forall c source buf, 0 <= c < 2 ^ (Z.of_nat d * b) ->
  (forall i, (i < d)%nat -> nth_error buf (source + i) = Some (word_of b d le c i)) ->
  forall n i acc, (i + n = d)%nat -> exists r, assemble_words f n i buf source acc = Some r /\
  forall t, 0 <= t -> Z.testbit r t = Z.testbit acc t || (Z.testbit c t && (t <? Z.of_nat d * b) && Nat.leb i (mp (Z.to_nat (t / b)))).
Proof using B K.
  intros c source buf C W. induction n as [|n IH]; intros i acc I.
  - exists acc. split; [reflexivity|]. intros t T. destruct (Z.ltb_spec t (Z.of_nat d * b)) as [H|H].
    + assert (t / b < Z.of_nat d) by (apply Z.div_lt_upper_bound; lia). assert (0 <= t / b) by (apply Z.div_pos; lia).
      destruct (Nat.leb_spec i (mp (Z.to_nat (t / b)))) as [Q|Q]; [|rewrite !andb_false_r, orb_false_r; reflexivity].
      exfalso. unfold mp in Q. destruct le; lia.
    + rewrite andb_false_r. cbn. rewrite orb_false_r. reflexivity.
  - cbn [assemble_words]. destruct (map_right i ltac:(lia)) as (M & S0). rewrite M. cbn [obind].
    change (bits_per_word f) with b. rewrite W by lia. cbn [obind]. rewrite S0.
    destruct (IH (S i) (Z.lor acc (wrapu (m_field_spec f) (Z.shiftl (word_of b d le c i) (Z.of_nat (mp i) * b)))) ltac:(lia)) as (r & E & R).
    exists r. split; [exact E|]. intros t T. rewrite (R t T). rewrite Z.lor_spec, <- orb_assoc. f_equal.
    unfold wrapu. change (m_field_spec f) with s.
    assert (MD : (mp i < d)%nat) by (unfold mp; destruct le; lia).
    assert (Q0 : 0 <= t / b) by (apply Z.div_pos; lia).
    pose proof (Z.div_mod t b ltac:(lia)) as DM. pose proof (Z.mod_pos_bound t b ltac:(lia)) as MB.
    unfold word_of. fold (mp i). rewrite <- word_bits.
    destruct (Z.ltb_spec t (Z.of_nat d * b)) as [H|H].
    2:{ rewrite !andb_false_r. cbn [andb]. rewrite orb_false_r.
        destruct (Z.ltb_spec t (fs_bits s)); [rewrite Z.mod_pow2_bits_low by lia|rewrite Z.mod_pow2_bits_high by nia; reflexivity].
        rewrite Z.shiftl_spec by lia. rewrite Z.land_spec. rewrite Z.ones_spec_high by nia. apply andb_false_r. }
    rewrite Z.mod_pow2_bits_low by lia. rewrite Z.shiftl_spec by lia. rewrite Z.land_spec. rewrite !andb_true_r.
    assert (QD : t / b < Z.of_nat d) by (apply Z.div_lt_upper_bound; lia).
    destruct (Z.eq_dec (t / b) (Z.of_nat (mp i))) as [Q|Q].
    + rewrite Z.shiftr_spec by nia. replace (t - Z.of_nat (mp i) * b + Z.of_nat (mp i) * b) with t by lia.
      rewrite Z.ones_spec_low by nia. rewrite Q, Nat2Z.id.
      replace (mp (mp i)) with i by (unfold mp; destruct le; lia).
      rewrite Nat.leb_refl. destruct (Nat.leb_spec (S i) i); [lia|]. rewrite andb_false_r, orb_false_r. reflexivity.
    + clear R E.
      assert (Z0 : Z.testbit (Z.ones b) (t - Z.of_nat (mp i) * b) = false).
      { destruct (Z_lt_ge_dec (t - Z.of_nat (mp i) * b) 0) as [X|X]; [apply Z.testbit_neg_r; lia|]. apply Z.ones_spec_high. nia. }
      rewrite Z0, andb_false_r. cbn [orb]. f_equal.
      assert (NE : mp (Z.to_nat (t / b)) <> i).
      { intros X. apply Q. rewrite <- X. unfold mp. destruct le; lia. }
      destruct (Nat.leb_spec (S i) (mp (Z.to_nat (t / b)))), (Nat.leb_spec i (mp (Z.to_nat (t / b)))); try lia; reflexivity.
Qed.

Lemma assemble_all : forall c source buf, 0 <= c < 2 ^ (Z.of_nat d * b) ->
  (forall i, (i < d)%nat -> nth_error buf (source + i) = Some (word_of b d le c i)) ->
  assemble_words f d 0 buf source 0 = Some c.
Proof using B K.
  intros c source buf C W. destruct (assemble_right c source buf C W d 0%nat 0 ltac:(lia)) as (r & E & R). rewrite E. f_equal.
  apply Z.bits_inj'. intros t T. rewrite (R t T). rewrite Z.bits_0. cbn [orb Nat.leb]. rewrite andb_true_r.
  destruct (Z.ltb_spec t (Z.of_nat d * b)); [apply andb_true_r|]. rewrite andb_false_r.
  rewrite <- (Z.mod_small c (2 ^ (Z.of_nat d * b))) by lia. rewrite Z.mod_pow2_bits_high by nia. reflexivity.
Qed.

Lemma assemble_same : forall source buf buf', (forall i, (i < d)%nat -> nth_error buf' (source + i) = nth_error buf (source + i)) ->
  forall n i acc, (i + n = d)%nat -> assemble_words f n i buf' source acc = assemble_words f n i buf source acc.
Proof using.
  intros source buf buf' S0. induction n as [|n IH]; intros i acc I; [reflexivity|]. cbn [assemble_words].
  destruct (map_word_index f i); [|reflexivity]. cbn [obind]. rewrite S0 by lia.
  destruct (nth_error buf (source + i)); [|reflexivity]. cbn [obind]. destruct (shift_ok _ _); [|reflexivity]. apply IH. lia.
Qed.
End Words.

Theorem mult_pixel : forall sort bits offset fields b d le w h x y buffer components init,
  let f := Mpf b d le (fs_make sort bits offset fields) in
  sorts sort -> good_fields bits offset fields -> valid_components fields components -> length init = length fields ->
  0 < b -> Z.of_nat d * b <= bits -> compound_value offset fields components < 2 ^ (Z.of_nat d * b) ->
  (x < w)%nat -> (y < h)%nat -> length buffer = (w * h * d)%nat ->
  exists buffer', write_pixel f buffer (pixel_index f w x y) components = Some buffer' /\ length buffer' = length buffer /\
  (forall i, (i < d)%nat -> nth_error buffer' ((y * w + x) * d + i) = Some (word_of b d le (compound_value offset fields components) i)) /\
  read_pixel f buffer' (pixel_index f w x y) init = Some components /\
  (forall x' y', (x' < w)%nat -> (x', y') <> (x, y) ->
    (forall i, (i < d)%nat -> nth_error buffer' ((y' * w + x') * d + i) = nth_error buffer ((y' * w + x') * d + i)) /\
    read_pixel f buffer' (pixel_index f w x' y') init = read_pixel f buffer (pixel_index f w x' y') init).
Proof.
  intros sort bits offset fields b d le w h x y buffer cs init f So G V L B K C X Y LB.
  destruct (mult_round_trip sort bits offset fields cs init So G V L) as (c & Pk & Ev & Un). rewrite <- Ev in *.
  assert (C0 : 0 <= c).
  { rewrite Ev. unfold compound_value. destruct G as (_ & G1 & GP & _).
    assert (0 <= total (map (fun fc => fst (fst fc) * snd fc) (combine fields cs))); [|lia].
    clear - V GP. induction V as [|[m z] c fs cs H V IH]; [cbn; lia|]. cbn [map combine total fst snd] in *.
    destruct (GP m z (or_introl eq_refl)). assert (0 <= total (map (fun fc => fst (fst fc) * snd fc) (combine fs cs))).
    { apply IH. intros m' z' I. apply GP. right. exact I. }
    nia. }
  assert (PI : forall x y, pixel_index f w x y = ((y * w + x) * d)%nat) by reflexivity.
  assert (BD : ((y * w + x) * d + d <= length buffer)%nat).
  { rewrite LB. replace ((y * w + x) * d + d)%nat with ((y * w + x + 1) * d)%nat by lia. apply Nat.mul_le_mono_r. nia. }
  destruct (split_right b d le (fs_make sort bits offset fields) B K c ((y * w + x) * d)%nat d 0%nat buffer ltac:(lia) BD) as (buf' & E & LE & N).
  exists buf'. unfold write_pixel, read_pixel. cbn [m_field_spec f words_per_pixel]. rewrite Pk. cbn [obind]. rewrite PI.
  split; [exact E|]. split; [exact LE|].
  assert (WD : forall i, (i < d)%nat -> nth_error buf' ((y * w + x) * d + i) = Some (word_of b d le c i)).
  { intros i I. rewrite N. destruct (Nat.leb_spec ((y * w + x) * d + 0) ((y * w + x) * d + i)); [|lia].
    destruct (Nat.ltb_spec ((y * w + x) * d + i) ((y * w + x) * d + d)); [|lia]. cbn [andb]. do 2 f_equal. lia. }
  split; [exact WD|]. split.
  { unfold f. rewrite (assemble_all b d le (fs_make sort bits offset fields) B K c _ _ (conj C0 C) WD). exact Un. }
  intros x' y' X' Ne.
  assert (SM : forall i, (i < d)%nat -> nth_error buf' ((y' * w + x') * d + i) = nth_error buffer ((y' * w + x') * d + i)).
  { intros i I. rewrite N.
    assert (D : (y' * w + x' <> y * w + x)%nat).
    { intros Q. apply Ne. assert (y' = y) by nia. subst y'. f_equal. lia. }
    destruct (Nat.leb_spec ((y * w + x) * d + 0) ((y' * w + x') * d + i)); [|reflexivity].
    destruct (Nat.ltb_spec ((y' * w + x') * d + i) ((y * w + x) * d + d)); [|reflexivity].
    exfalso. set (p := (y' * w + x')%nat) in *. set (q := (y * w + x)%nat) in *. nia. }
  split; [exact SM|]. rewrite PI. unfold f. rewrite (assemble_same b d le _ _ _ _ SM d 0%nat 0 ltac:(lia)). reflexivity.
Qed.

(* three words of four bits, 1042 = 0x412, at position (1, 0) in an image of 2 times 2 pixels *)
Example mult_pixel_case : let fields := [(1, 3); (12, 4); (4, 2)] in let s := fs_make isort 32 1000 fields in
  let buffer := [15; 0; 7; 9; 9; 9; 1; 2; 3; 4; 5; 6] in
  sorts isort /\ good_fields 32 1000 fields /\ valid_components fields [2; 3; 1] /\
  compound_value 1000 fields [2; 3; 1] < 2 ^ (Z.of_nat 3 * 4) /\
  write_pixel (Mpf 4 3 false s) buffer (pixel_index (Mpf 4 3 false s) 2 1 0) [2; 3; 1] = Some [15; 0; 7; 4; 1; 2; 1; 2; 3; 4; 5; 6] /\
  write_pixel (Mpf 4 3 true s) buffer (pixel_index (Mpf 4 3 true s) 2 1 0) [2; 3; 1] = Some [15; 0; 7; 2; 1; 4; 1; 2; 3; 4; 5; 6] /\
  read_pixel (Mpf 4 3 false s) [15; 0; 7; 4; 1; 2; 1; 2; 3; 4; 5; 6] 3 [0; 0; 0] = Some [2; 3; 1].
Proof.
  cbv zeta. split; [exact isort_sorts|]. split; [|split; [repeat constructor; cbn; lia|repeat split; vm_compute; reflexivity]].
  unfold good_fields. split; [lia|]. split; [lia|]. split.
  - intros m x [E|[E|[E|[]]]]; injection E as <- <-; lia.
  - split; [|vm_compute; reflexivity]. intros a m x b E.
    destruct a as [|f1 [|f2 [|f3 a]]]; try (injection E as <- <- <-; vm_compute; reflexivity);
      try (injection E as <- <- <- <-; vm_compute; reflexivity); try (injection E as <- <- <- <- <-; vm_compute; reflexivity).
    exfalso. apply (f_equal (@length _)) in E. cbn in E. rewrite app_length in E. cbn in E. lia.
Qed.

Print Assumptions mult_pixel.
