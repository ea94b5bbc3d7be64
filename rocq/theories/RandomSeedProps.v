(* Theorems about the serialized form of random seeds. *)
From Coq Require Import ZArith Bool List Lia ZifyBool.
From Verif Require Import CInt IntModel RandomSeedModel RandomSeedSpec RandomSeedProofs ArrLib.
Import ListNotations.
Open Scope Z_scope.

(* C141: the serialized form is that of the documentation *)
Theorem random_seed_write_exact : forall (C : Type) (widen : Z -> C) fw seed n,
  64 <= fw -> length seed = (n * 6)%nat -> Forall word seed ->
  exists wss blocks, write_seed fw widen seed = Some (dashed (widen 45) (map (map widen) blocks)) /\
    length blocks = n /\ Forall2 block_text wss blocks /\ concat wss = seed.
Proof.
  intros C widen fw seed n Hfw L F. unfold write_seed. rewrite L, Nat.div_mul by lia. rewrite Nat.eqb_refl. destruct n as [|n].
  - exists [], []. split; [reflexivity|]. split; [reflexivity|]. split; [constructor|]. now destruct seed.
  - destruct (format_blocks_ok fw Hfw widen seed n 0) as (wss & blocks & E & _ & F2 & Ec); [exact L|exact F|].
    exists wss, blocks. split; [exact E|]. split; [|split; [assumption|exact Ec]].
    cbn [skipn Nat.mul] in Ec. apply (f_equal (@length Z)) in Ec. rewrite L in Ec. clear - F2 Ec.
    assert (length (concat wss) = (length blocks * 6)%nat); [|lia].
    clear Ec. induction F2 as [|ws b wss blocks B F2 IH]; [reflexivity|]. apply block_text_len in B. cbn [concat length]. rewrite app_length. lia.
Qed.

(* six words: the least pair, the greatest pair, and 61 + 62 * 1 *)
Example random_seed_write_ex : write_seed 64 (fun c => c) [0; 0; 4294967295; 4294967295; 123; 0] =
  Some ([48;48;48;48;48;48;48;48;48;48;48] ++ [76;121;103;72;97;49;54;65;72;89;70] ++ [48;48;48;48;48;48;48;48;48;49;122]).
Proof. vm_compute. reflexivity. Qed.

(* C142: what is read and how far.  This is the full behavior of the operator, but it is not what the documentation says: blocks with
   more than 33 characters are accepted, and pairs of words that are all ones are not *)
Theorem random_seed_read_partial : forall (C : Type) (ceqb : C -> C -> bool) (widen : Z -> C) (narrow : C -> Z) (is_alnum : C -> bool) fw vw text,
  (forall a b, ceqb a b = true <-> a = b) -> is_alnum (widen 45) = false -> 64 <= fw -> 32 <= vw ->
  exists r, read_seed fw vw ceqb widen narrow is_alnum text = Some r /\
  (rr_eof r = true <-> rr_rest r = []) /\
  forall ws tail, (rr_seed r = Some ws /\ rr_rest r = tail) <->
    (text = widen 45 :: tail /\ ws = []) \/
    (exists wss blocks, blocks <> [] /\ text = dashed (widen 45) blocks ++ tail /\ ended is_alnum (widen 45) tail /\
       Forall2 (accepted_block narrow is_alnum) wss blocks /\ ws = concat wss).
Proof.
  intros C ceqb widen narrow is_alnum fw vw text Hc Hd Hfw Hvw. unfold read_seed.
  assert (NE : forall wss blocks tail, blocks <> [] -> Forall2 (accepted_block narrow is_alnum) wss blocks ->
    exists c rest, dashed (widen 45) blocks ++ tail = c :: rest /\ is_alnum c = true).
  { intros wss [|b blocks] tail N F; [congruence|]. inversion F; subst. rewrite dashed_cons. destruct b as [|c b]; [destruct H2 as (_ & cs & <- & B & _); apply block_text_len in B; cbn in B; lia|].
    cbn [app]. do 2 eexists. split; [reflexivity|]. destruct H2 as (A & _). now inversion A. }
  destruct text as [|ch rest].
  - eexists. split; [reflexivity|]. cbn [rr_seed rr_rest rr_eof]. split; [tauto|]. intros ws tail. split; [intros (? & _); discriminate|].
    intros [(? & _)|(wss & blocks & N & E & _ & F & _)]; [discriminate|]. destruct (NE wss blocks tail N F) as (c & rest & E2 & _). congruence.
  - destruct (ceqb ch (sep widen)) eqn:Ed.
    + apply Hc in Ed. subst ch. unfold sep. eexists. split; [reflexivity|]. cbn [rr_seed rr_rest rr_eof]. split; [destruct rest; split; congruence|].
      intros ws tail. split.
      * intros ([= <-] & <-). left. auto.
      * intros [(E & ->)|(wss & blocks & N & E & _ & F & _)]; [injection E as ->; auto|].
        destruct (NE wss blocks tail N F) as (c & rest' & E2 & A). rewrite E2 in E. injection E as <- <-. congruence.
    + destruct (read_blocks_ok fw vw Hfw Hvw ceqb Hc widen narrow is_alnum Hd rest ch [] [] 0 ltac:(constructor) eq_refl) as (r & E & He & Hr).
      exists r. split; [exact E|]. split; [assumption|]. intros ws tail. rewrite Hr. cbn [app]. split.
      * intros (wss & b & blocks & H1 & H2 & H3 & H4). right. exists wss, (b :: blocks). split; [discriminate|auto].
      * intros [(E2 & _)|(wss & blocks & N & H1 & H2 & H3 & H4)].
        -- exfalso. injection E2 as -> _. assert (ceqb (widen 45) (sep widen) = true) by (apply Hc; reflexivity). congruence.
        -- destruct blocks as [|b blocks]; [congruence|]. eauto 8.
Qed.

Definition ascii_alnum (c : Z) : bool := ((48 <=? c) && (c <=? 57)) || ((65 <=? c) && (c <=? 90)) || ((97 <=? c) && (c <=? 122)).

Example random_seed_read_ex :
  let block := repeat 48 10 ++ [50] ++ repeat 48 10 ++ [97] ++ repeat 48 9 ++ [49; 122] in
  read_seed 64 64 Z.eqb (fun c => c) (fun c => c) ascii_alnum (block ++ [45] ++ block ++ [32; 45]) =
    Some {| rr_seed := Some [2; 0; 36; 0; 123; 0; 2; 0; 36; 0; 123; 0]; rr_rest := [32; 45]; rr_eof := false |} /\
  read_seed 64 64 Z.eqb (fun c => c) (fun c => c) ascii_alnum (block ++ [45]) =
    Some {| rr_seed := None; rr_rest := []; rr_eof := true |} /\
  read_seed 64 64 Z.eqb (fun c => c) (fun c => c) ascii_alnum [45; 45] =
    Some {| rr_seed := Some []; rr_rest := [45]; rr_eof := false |}.
Proof. vm_compute. repeat split. Qed.

(* not only serialized forms are accepted: a block of 34 characters is *)
Theorem random_seed_read_refuted : exists text ws,
  Forall (fun c => ascii_alnum c = true) text /\ length text = 34%nat /\
  read_seed 64 64 Z.eqb (fun c => c) (fun c => c) ascii_alnum text = Some {| rr_seed := Some ws; rr_rest := []; rr_eof := true |} /\
  forall seed, write_seed 64 (fun c => c) seed <> Some text \/ ~ Forall word seed.
Proof.
  exists (repeat 48 34), [0; 0; 0; 0; 0; 0]. split; [repeat constructor|]. split; [reflexivity|]. split; [vm_compute; reflexivity|].
  intros seed. destruct (Forall_dec word (fun w => ltac:(unfold word; destruct (Z_le_dec 0 w); [destruct (Z_lt_dec w (2 ^ 32)); [left; lia|right; lia]|right; lia])) seed) as [F|F]; [|auto].
  left. intros E. destruct (Nat.eq_dec (length seed) (length seed / 6 * 6)) as [L|L].
  - destruct (random_seed_write_exact Z (fun c => c) 64 seed _ ltac:(lia) L F) as (wss & blocks & E2 & Lb & F2 & _).
    rewrite E in E2. injection E2 as E2. assert (Hm : map (map (fun c : Z => c)) blocks = blocks).
    { clear. induction blocks as [|b blocks IH]; cbn; [reflexivity|]. now rewrite map_id, IH. }
    rewrite Hm in E2. destruct F2 as [|ws b wss blocks B [|ws2 b2 wss2 blocks2 B2 F2]].
    + discriminate.
    + apply block_text_len in B. apply (f_equal (@length Z)) in E2. cbn [dashed length] in E2. lia.
    + apply block_text_len in B. apply (f_equal (fun l => nth_error l 33)) in E2.
      change (dashed 45 (b :: b2 :: blocks2)) with (b ++ 45 :: dashed 45 (b2 :: blocks2)) in E2.
      rewrite (nth_error_app2 b) in E2 by lia. replace (33 - length b)%nat with O in E2 by lia. discriminate.
  - unfold write_seed in E. destruct (Nat.eqb_spec (length seed) (length seed / 6 * 6)); [contradiction|discriminate].
Qed.

Lemma base62_chars_ok cs v : base62 cs v -> Forall (fun c => exists d, base62_digit c d) cs.
Proof. induction 1; [constructor|]. apply Forall_app. split; [assumption|]. constructor; [eauto|constructor]. Qed.

Lemma block_accepted {C} (widen : Z -> C) narrow is_alnum ws cs : mapping_ok widen narrow is_alnum -> block_text ws cs -> no_all_ones ws ->
  accepted_block narrow is_alnum ws (map widen cs).
Proof.
  intros (_ & M) B N. pose proof (block_text_len _ _ B) as (L & _).
  assert (D : Forall (fun c => exists d, base62_digit c d) cs).
  { destruct B as (w1 & w2 & w3 & w4 & w5 & w6 & a & b & c & _ & -> & (_ & Pa & _) & (_ & Pb & _) & (_ & Pc & _)).
    rewrite !Forall_app. repeat split; eapply base62_chars_ok; eassumption. }
  assert (E : map narrow (map widen cs) = cs).
  { rewrite map_map. clear - D M. induction D as [|c cs (d & Hd) D IH]; cbn; [reflexivity|]. rewrite IH. destruct (M c d Hd) as (-> & _). reflexivity. }
  split.
  - clear - D M. induction D as [|c cs (d & Hd) D IH]; cbn; constructor; [now apply (M c d)|assumption].
  - exists cs. rewrite E. split; [|split; assumption]. apply firstn_all2. lia.
Qed.

Lemma no_all_ones_split wss : Forall (fun ws => length ws = 6%nat) wss -> no_all_ones (concat wss) -> Forall no_all_ones wss.
Proof.
  induction 1 as [|ws wss L F IH]; [constructor|]. cbn [concat]. destruct ws as [|w1 [|w2 [|w3 [|w4 [|w5 [|w6 [|]]]]]]]; try discriminate.
  cbn [app no_all_ones]. intros (N1 & N2 & N3 & N). constructor; [cbn; tauto|]. now apply IH.
Qed.

(* C143: a written seed can be read back, provided that it has no pair of words that are all ones *)
Theorem random_seed_round_trip_partial : forall (C : Type) (ceqb : C -> C -> bool) (widen : Z -> C) (narrow : C -> Z) (is_alnum : C -> bool) fw vw seed n tail,
  (forall a b, ceqb a b = true <-> a = b) -> mapping_ok widen narrow is_alnum -> 64 <= fw -> 32 <= vw ->
  length seed = (n * 6)%nat -> Forall word seed -> no_all_ones seed -> ended is_alnum (widen 45) tail ->
  exists text, write_seed fw widen seed = Some text /\
  exists r, read_seed fw vw ceqb widen narrow is_alnum (text ++ tail) = Some r /\ rr_seed r = Some seed /\ rr_rest r = tail.
Proof.
  intros C ceqb widen narrow is_alnum fw vw seed n tail Hc M Hfw Hvw L F N He.
  destruct (random_seed_write_exact C widen fw seed n Hfw L F) as (wss & blocks & E & Lb & F2 & Ec).
  eexists. split; [exact E|].
  destruct (random_seed_read_partial C ceqb widen narrow is_alnum fw vw (dashed (widen 45) (map (map widen) blocks) ++ tail) Hc ltac:(apply M) Hfw Hvw) as (r & Er & _ & Hr).
  exists r. split; [exact Er|]. apply Hr. destruct blocks as [|b blocks].
  - left. inversion F2; subst. cbn. auto.
  - right. exists wss, (map (map widen) (b :: blocks)). split; [discriminate|]. split; [reflexivity|]. split; [assumption|]. split; [|congruence].
    assert (N2 : Forall no_all_ones wss).
    { apply no_all_ones_split; [|now rewrite Ec]. clear - F2. induction F2; constructor; [eapply block_text_len; eassumption|assumption]. }
    clear - M F2 N2. induction F2 as [|ws b' wss blocks' B F2 IH]; cbn; constructor.
    + inversion N2; subst. now apply block_accepted.
    + inversion N2; subst. now apply IH.
Qed.

Example mapping_ok_ex : mapping_ok (fun c => c) (fun c => c) ascii_alnum.
Proof. split; [reflexivity|]. intros c d H. split; [reflexivity|]. unfold ascii_alnum, base62_digit in *. lia. Qed.

Example random_seed_round_trip_ex : exists text,
  write_seed 64 (fun c => c) [4294967295; 4294967294; 0; 4294967295; 1; 2] = Some text /\
  read_seed 64 64 Z.eqb (fun c => c) (fun c => c) ascii_alnum text =
    Some {| rr_seed := Some [4294967295; 4294967294; 0; 4294967295; 1; 2]; rr_rest := []; rr_eof := true |}.
Proof. eexists. split; [vm_compute; reflexivity|vm_compute; reflexivity]. Qed.

(* a seed with a pair of words that are all ones cannot be read back *)
Theorem random_seed_round_trip_refuted : exists seed text,
  length seed = 6%nat /\ Forall word seed /\ write_seed 64 (fun c => c) seed = Some text /\
  read_seed 64 64 Z.eqb (fun c => c) (fun c => c) ascii_alnum text = Some {| rr_seed := None; rr_rest := []; rr_eof := true |}.
Proof.
  exists [4294967295; 4294967295; 0; 0; 0; 0]. eexists. split; [reflexivity|]. split; [repeat constructor; lia|]. split; [vm_compute; reflexivity|vm_compute; reflexivity].
Qed.

Print Assumptions random_seed_write_exact.
Print Assumptions random_seed_read_partial.
Print Assumptions random_seed_read_refuted.
Print Assumptions random_seed_round_trip_partial.
Print Assumptions random_seed_round_trip_refuted.
