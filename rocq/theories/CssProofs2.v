(* Proofs about the hexadecimal form *)
From Coq Require Import ZArith Lia Zify.
From Coq Require Import List Bool.
From Verif Require Import CInt IntSpec IntTextModel IntTextSpec IntTextProofs IntTextProps BitMediumProofs
  CssModel CssSpec CssProofs ArrLib.
Import ListNotations.
Open Scope Z_scope.

Ltac Zify.zify_post_hook ::= Z.div_mod_to_equations.

Lemma hex_digit_fun c d e : hex_digit c d -> hex_digit c e -> d = e.
Proof. intros [H _] [H2 _]. eapply digit_char_fun; eassumption. Qed.

Lemma hex_digit_range c d : hex_digit c d -> 0 <= d < 16.
Proof. unfold hex_digit, digit_char. lia. Qed.

Lemma positional8 d1 d2 d3 d4 d5 d6 d7 d8 : positional 16 [d1; d2; d3; d4; d5; d6; d7; d8] =
  d1 * 268435456 + d2 * 16777216 + d3 * 1048576 + d4 * 65536 + d5 * 4096 + d6 * 256 + d7 * 16 + d8.
Proof. cbn [positional length]. lia. Qed.

Lemma hex8_ok c1 c2 c3 c4 c5 c6 c7 c8 :
  (exists d1 d2 d3 d4 d5 d6 d7 d8,
    (hex_digit c1 d1 /\ hex_digit c2 d2 /\ hex_digit c3 d3 /\ hex_digit c4 d4) /\
    (hex_digit c5 d5 /\ hex_digit c6 d6 /\ hex_digit c7 d7 /\ hex_digit c8 d8) /\
    parse (fun c => c) rgba_type 16 SignReject [c1; c2; c3; c4; c5; c6; c7; c8] 0 =
      Some (true, d1 * 268435456 + d2 * 16777216 + d3 * 1048576 + d4 * 65536 + d5 * 4096 + d6 * 256 + d7 * 16 + d8)) \/
  ((forall d1 d2 d3 d4 d5 d6 d7 d8,
    hex_digit c1 d1 -> hex_digit c2 d2 -> hex_digit c3 d3 -> hex_digit c4 d4 ->
    hex_digit c5 d5 -> hex_digit c6 d6 -> hex_digit c7 d7 -> hex_digit c8 d8 -> False) /\
    parse (fun c => c) rgba_type 16 SignReject [c1; c2; c3; c4; c5; c6; c7; c8] 0 = Some (false, 0)).
Proof.
  destruct (parse_exact Z (fun c => c) rgba_type 16 SignReject [c1; c2; c3; c4; c5; c6; c7; c8] 0)
    as [(v & N & _ & E)|[N E]]; [unfold ity_ok, rgba_type; cbn; lia|lia| |].
  - left. destruct N as (ds & _ & [[[F G] V]|[(cs & _ & X & _)|(cs & _ & X & _)]]).
    2:{ discriminate X. } 2:{ now elim X. }
    rewrite map_id in F.
    repeat match goal with
    | H : Forall2 _ (_ :: _) _ |- _ => inversion H; clear H; subst
    | H : Forall2 _ [] _ |- _ => inversion H; clear H; subst
    | H : Forall _ (_ :: _) |- _ => inversion H; clear H; subst
    end.
    rewrite positional8 in E.
    do 8 eexists. split; [|split; [|exact E]]; unfold hex_digit; auto.
  - right. split; [|exact E]. intros d1 d2 d3 d4 d5 d6 d7 d8 [H1 L1] [H2 L2] [H3 L3] [H4 L4] [H5 L5] [H6 L6] [H7 L7] [H8 L8].
    apply (N (positional 16 [d1; d2; d3; d4; d5; d6; d7; d8])).
    + exists [d1; d2; d3; d4; d5; d6; d7; d8]. split; [discriminate|]. left. split; [|reflexivity].
      rewrite map_id. split; repeat first [apply Forall2_cons|apply Forall2_nil|apply Forall_cons|apply Forall_nil]; assumption.
    + rewrite positional8. unfold representable, rgba_type. cbn [isigned iwidth].
      apply digit_char_range in H1, H2, H3, H4, H5, H6, H7, H8. lia.
Qed.

Lemma land255 x : Z.land x 255 = x mod 256.
Proof. change 255 with (Z.ones 8). rewrite Z.land_ones by lia. reflexivity. Qed.

Lemma land15 x : Z.land x 15 = x mod 16.
Proof. change 15 with (Z.ones 4). rewrite Z.land_ones by lia. reflexivity. Qed.

Lemma unpack d1 d2 d3 d4 d5 d6 d7 d8 :
  0 <= d1 < 16 -> 0 <= d2 < 16 -> 0 <= d3 < 16 -> 0 <= d4 < 16 ->
  0 <= d5 < 16 -> 0 <= d6 < 16 -> 0 <= d7 < 16 -> 0 <= d8 < 16 ->
  let v := d1 * 268435456 + d2 * 16777216 + d3 * 1048576 + d4 * 65536 + d5 * 4096 + d6 * 256 + d7 * 16 + d8 in
  Hex (comp (Z.land (Z.shiftr v (3 * 8)) 0xFF)) (comp (Z.land (Z.shiftr v (2 * 8)) 0xFF))
      (comp (Z.land (Z.shiftr v (1 * 8)) 0xFF)) (comp (Z.land (Z.shiftr v (0 * 8)) 0xFF)) =
  Hex (16 * d1 + d2) (16 * d3 + d4) (16 * d5 + d6) (16 * d7 + d8).
Proof.
  intros. subst v. unfold comp. rewrite !land255, !Z.shiftr_div_pow2 by lia.
  change (2 ^ (3 * 8)) with 16777216. change (2 ^ (2 * 8)) with 65536. change (2 ^ (1 * 8)) with 256.
  change (2 ^ (0 * 8)) with 1. change (2 ^ 8) with 256. f_equal; lia.
Qed.

Lemma some_inj {A} (a b : A) : Some a = Some b -> a = b.
Proof. congruence. Qed.

Lemma digit_F : hex_digit 70 15.
Proof. unfold hex_digit, digit_char. lia. Qed.

Lemma parse_hex_form_ok t : exists r, parse_hex_form t = Some r /\ forall x, r = Some x <-> hex_text t x.
Proof.
  pose proof digit_F as DF.
  assert (K : forall c1 c2 c3 c4 c5 c6 c7 c8, hex_buffer t = Some [c1; c2; c3; c4; c5; c6; c7; c8] ->
    exists r, parse_hex_form t = Some r /\
      ((exists d1 d2 d3 d4 d5 d6 d7 d8,
        (hex_digit c1 d1 /\ hex_digit c2 d2 /\ hex_digit c3 d3 /\ hex_digit c4 d4) /\
        (hex_digit c5 d5 /\ hex_digit c6 d6 /\ hex_digit c7 d7 /\ hex_digit c8 d8) /\
        r = Some (Hex (16 * d1 + d2) (16 * d3 + d4) (16 * d5 + d6) (16 * d7 + d8))) \/
       ((forall d1 d2 d3 d4 d5 d6 d7 d8,
         hex_digit c1 d1 -> hex_digit c2 d2 -> hex_digit c3 d3 -> hex_digit c4 d4 ->
         hex_digit c5 d5 -> hex_digit c6 d6 -> hex_digit c7 d7 -> hex_digit c8 d8 -> False) /\ r = None))).
  { intros c1 c2 c3 c4 c5 c6 c7 c8 E. unfold parse_hex_form. rewrite E.
    destruct (hex8_ok c1 c2 c3 c4 c5 c6 c7 c8) as [(d1 & d2 & d3 & d4 & d5 & d6 & d7 & d8 & D & D' & P)|[D P]];
      rewrite P; cbn [obind].
    - eexists. split; [reflexivity|]. left. exists d1, d2, d3, d4, d5, d6, d7, d8. split; [exact D|]. split; [exact D'|].
      f_equal. destruct D as (D1 & D2 & D3 & D4), D' as (D5 & D6 & D7 & D8).
      apply unpack; eapply hex_digit_range; eassumption.
    - eexists. split; [reflexivity|]. right. split; [exact D|reflexivity]. }
  assert (N : hex_buffer t = None -> (forall x, ~ hex_text t x) ->
    exists r, parse_hex_form t = Some r /\ forall x, r = Some x <-> hex_text t x).
  { intros E H. unfold parse_hex_form. rewrite E. exists None. split; [reflexivity|].
    intros x. split; [discriminate|]. intros X. now elim (H x). }
  Ltac uniq := repeat match goal with
    | H1 : hex_digit ?c ?d, H2 : hex_digit ?c ?e |- _ =>
      first [constr_eq d e; clear H2 | pose proof (hex_digit_fun _ _ _ H1 H2); subst]
    end.
  destruct t as [|c1 t]; [apply N; [reflexivity|intros x X; inversion X]|].
  destruct t as [|c2 t]; [apply N; [reflexivity|intros x X; inversion X]|].
  destruct t as [|c3 t]; [apply N; [reflexivity|intros x X; inversion X]|].
  destruct t as [|c4 t].
  { clear N. destruct (K _ _ _ _ _ _ _ _ eq_refl) as (r & E & H). clear K. exists r. split; [exact E|]. clear E.
    destruct H as [(d1 & d2 & d3 & d4 & d5 & d6 & d7 & d8 & (D1 & D2 & D3 & D4) & (D5 & D6 & D7 & D8) & ->)|[D ->]].
    - intros x. split.
      + intros X. apply some_inj in X. subst x. uniq.
        replace (Hex _ _ _ _) with (Hex (17 * d2) (17 * d4) (17 * d6) 255) by (f_equal; lia). now constructor.
      + intros X. inversion X; subst. uniq. f_equal. f_equal; lia.
    - intros x. split; [discriminate|]. intros X. inversion X; subst. exfalso. eauto. }
  destruct t as [|c5 t].
  { clear N. destruct (K _ _ _ _ _ _ _ _ eq_refl) as (r & E & H). clear K. exists r. split; [exact E|]. clear E.
    destruct H as [(d1 & d2 & d3 & d4 & d5 & d6 & d7 & d8 & (D1 & D2 & D3 & D4) & (D5 & D6 & D7 & D8) & ->)|[D ->]].
    - intros x. split.
      + intros X. apply some_inj in X. subst x. uniq.
        replace (Hex _ _ _ _) with (Hex (17 * d2) (17 * d4) (17 * d6) (17 * d8)) by (f_equal; lia). now constructor.
      + intros X. inversion X; subst. uniq. f_equal. f_equal; lia.
    - intros x. split; [discriminate|]. intros X. inversion X; subst. exfalso. eauto. }
  destruct t as [|c6 t]; [apply N; [reflexivity|intros x X; inversion X]|].
  destruct t as [|c7 t].
  { clear N. destruct (K _ _ _ _ _ _ _ _ eq_refl) as (r & E & H). clear K. exists r. split; [exact E|]. clear E.
    destruct H as [(d1 & d2 & d3 & d4 & d5 & d6 & d7 & d8 & (D1 & D2 & D3 & D4) & (D5 & D6 & D7 & D8) & ->)|[D ->]].
    - intros x. split.
      + intros X. apply some_inj in X. subst x. pose proof (hex_digit_fun _ _ _ D7 DF). pose proof (hex_digit_fun _ _ _ D8 DF). subst d7 d8.
        change (16 * 15 + 15) with 255. now constructor.
      + intros X. inversion X; subst. pose proof (hex_digit_fun _ _ _ D7 DF). pose proof (hex_digit_fun _ _ _ D8 DF).
        subst d7 d8. f_equal. f_equal; try reflexivity; f_equal; try (f_equal; eapply hex_digit_fun; eassumption);
          eapply hex_digit_fun; eassumption.
    - intros x. split; [discriminate|]. intros X. inversion X; subst. exfalso. eauto 10. }
  destruct t as [|c8 t]; [apply N; [reflexivity|intros x X; inversion X]|].
  destruct t as [|c9 t].
  { clear N. destruct (K _ _ _ _ _ _ _ _ eq_refl) as (r & E & H). clear K. exists r. split; [exact E|]. clear E.
    destruct H as [(d1 & d2 & d3 & d4 & d5 & d6 & d7 & d8 & (D1 & D2 & D3 & D4) & (D5 & D6 & D7 & D8) & ->)|[D ->]].
    - intros x. split.
      + intros X. apply some_inj in X. subst x. now constructor.
      + intros X. inversion X; subst. f_equal. f_equal; f_equal; try (f_equal; eapply hex_digit_fun; eassumption);
          eapply hex_digit_fun; eassumption.
    - intros x. split; [discriminate|]. intros X. inversion X; subst. exfalso. eauto 12. }
  apply N; [reflexivity|intros x X; inversion X].
Qed.
