(* Theorems for C17-C22 and C46: conversion between code points, UTF-8 and UTF-16. *)
From Coq Require Import ZArith List Bool Arith Lia.
From Coq Require Import ZifyBool.
From Verif Require Import ArrLib BufferModel UnicodeModel UnicodeSpec UnicodeProofs UnicodeProofs2 Base64Proofs.
Import ListNotations.
Open Scope nat_scope.

(* The six conversions *)
Inductive conversion := Enc8 | Dec8 (reduced : bool) | Enc16 | Dec16 (reduced : bool) | To16 | To8.

Definition in_form (v : conversion) : Z -> list Z :=
  match v with Enc8 | Enc16 => ucs | Dec8 _ | To16 => utf8 | Dec16 _ | To8 => utf16 end.
Definition out_form (v : conversion) : Z -> list Z :=
  match v with Enc8 | To8 => utf8 | Enc16 | To16 => utf16 | Dec8 _ | Dec16 _ => ucs end.
Definition narrow (v : conversion) : bool :=
  match v with Dec8 reduced | Dec16 reduced => reduced | _ => false end.
Definition in_unit (v : conversion) (u : Z) : Prop :=
  match v with Dec8 _ | To16 => (0 <= u < 256)%Z | _ => (0 <= u)%Z end.
Definition replacement_of (v : conversion) : list Z :=
  match v with Enc8 | To8 => [0xEF; 0xBF; 0xBD] | _ => [0xFFFD] end%Z.

Definition incr_of (v : conversion) :=
  match v with
  | Enc8 => encode_utf8_incr | Dec8 reduced => decode_utf8_incr reduced
  | Enc16 => encode_utf16_incr | Dec16 reduced => decode_utf16_incr reduced
  | To16 => utf8_to_utf16_incr | To8 => utf16_to_utf8_incr
  end.
Definition try_of (v : conversion) :=
  match v with
  | Enc8 => try_encode_utf8 | Dec8 reduced => try_decode_utf8 reduced
  | Enc16 => try_encode_utf16 | Dec16 reduced => try_decode_utf16 reduced
  | To16 => try_utf8_to_utf16 | To8 => try_utf16_to_utf8
  end.
Definition lenient_of (v : conversion) :=
  match v with
  | Enc8 => encode_utf8_l | Dec8 reduced => decode_utf8_l reduced
  | Enc16 => encode_utf16_l | Dec16 reduced => decode_utf16_l reduced
  | To16 => utf8_to_utf16_l | To8 => utf16_to_utf8_l
  end.

Notation cp_ok v := (valid_for (narrow v)).
Notation tr f cps := (flat_map f cps).
Notation units v := (Forall (in_unit v)).

Definition step_of (v : conversion) :=
  match v with
  | Enc8 => encode_utf8_step | Dec8 reduced => decode_utf8_step reduced
  | Enc16 => encode_utf16_step | Dec16 reduced => decode_utf16_step reduced
  | To16 => utf8_to_utf16_step | To8 => utf16_to_utf8_step
  end.
Definition checked_of (v : conversion) : bool := match v with Enc8 | Enc16 => true | _ => false end.
Definition resync_of (v : conversion) :=
  match v with Enc8 | Enc16 => no_resync | Dec8 _ | To16 => resync_utf8 | Dec16 _ | To8 => resync_utf16 end.
Definition read_of (v : conversion) :=
  match v with Enc8 | Enc16 => read32 | Dec8 _ | To16 => read8 | Dec16 _ | To8 => read16 end.

Lemma try_of_eq v : try_of v = fun W => try_conv (step_of v) W (checked_of v).
Proof. now destruct v. Qed.
Lemma incr_of_eq v : incr_of v = incr (step_of v).
Proof. now destruct v. Qed.
Lemma lenient_of_eq v : lenient_of v = fun W => conv_l (step_of v) W (checked_of v) (resync_of v) (replacement_of v).
Proof. now destruct v. Qed.

Lemma of_good v emit c t : valid_cp c -> read_of v emit (in_form v c ++ t) = emit c (length (in_form v c)).
Proof. destruct v; cbn [read_of in_form]; eauto using read8_good, read16_good, read32_good. Qed.
Lemma of_cases v t : units v t -> outcome_of (in_form v) (read_of v) t.
Proof. destruct v; cbn [read_of in_form]; intros; eauto using read8_cases, read16_cases, read32_cases. Qed.
Lemma of_read_more v emit t q : read_of v emit t <> End -> read_of v emit (t ++ q) = read_of v emit t.
Proof. destruct v; cbn [read_of]; eauto using read8_more, read16_more, read32_more. Qed.
Lemma of_read v t room : units v t -> step_of v t room = read_of v (emitter (narrow v) (out_form v) room) t.
Proof.
  destruct v; cbn [read_of step_of narrow out_form]; intros;
  eauto using decode_utf8_read, decode_utf16_read, encode_utf8_read, encode_utf16_read, utf8_to_utf16_read, utf16_to_utf8_read.
Qed.
Lemma of_src v c : 1 <= length (in_form v c).
Proof. destruct v; cbn [in_form]; first [apply ucs_len|apply utf8_len|apply utf16_len]. Qed.
Lemma of_dst v c : 1 <= length (out_form v c) <= 4.
Proof. destruct v; cbn [out_form]; first [apply ucs_len|apply utf8_len|apply utf16_len]. Qed.
Lemma of_step v t : units v t ->
  good_step (cp_ok v) (in_form v) (out_form v) (step_of v) t \/ stop_step (cp_ok v) (in_form v) (step_of v) t.
Proof. intros. apply (req_step (in_form v) (out_form v) (read_of v) (in_unit v)); auto using of_good, of_cases, of_read, of_src. Qed.
Lemma of_pf v c c' t t' : cp_ok v c -> cp_ok v c' -> in_form v c ++ t = in_form v c' ++ t' -> c = c' /\ t = t'.
Proof. intros. apply (req_prefix (in_form v) (read_of v) (narrow v)); auto using of_good. Qed.
Lemma of_more v t q room : units v (t ++ q) -> step_of v t room <> End -> step_of v (t ++ q) room = step_of v t room.
Proof. intros. eapply (req_more (out_form v) (read_of v) (in_unit v)); eauto using of_read_more, of_read. Qed.
Lemma of_checked v : checked_of v = true -> forall t room, units v t -> step_of v t room = End -> t = [].
Proof.
  intros H t room Ht E. rewrite of_read in E by easy. destruct v; try discriminate; destruct t as [|x t]; auto; cbn in E;
  destruct (valid_b x); try discriminate; unfold put in E; match type of E with context [if ?b then _ else _] => destruct b end; discriminate.
Qed.
Lemma of_resync v t : units v t -> resync_of v t <= length t /\ forall i, i < resync_of v t -> stuck (cp_ok v) (in_form v) (skipn i t).
Proof.
  intros _. destruct v; cbn [resync_of in_form]; first [apply resync8_ok|apply resync16_ok|split; [unfold no_resync; lia|unfold no_resync; intros; lia]].
Qed.
Lemma of_rep v : 1 <= length (replacement_of v) <= 3.
Proof. destruct v; cbn; lia. Qed.

Notation wf v s := (exists cps, Forall (cp_ok v) cps /\ s = tr (in_form v) cps).
Notation size l := (Z.of_nat (length l)).

Lemma of_parse v s : units v s -> exists cps rest, parse (cp_ok v) (in_form v) s cps rest.
Proof.
  apply (parse_exists (cp_ok v) (in_form v) (out_form v) (step_of v) (in_unit v)); intros; auto using of_step, of_src.
Qed.
Lemma of_unique v s cps rest cps' rest' : parse (cp_ok v) (in_form v) s cps rest -> parse (cp_ok v) (in_form v) s cps' rest' ->
  cps = cps' /\ rest = rest'.
Proof. apply (parse_unique (cp_ok v) (in_form v)); eauto using of_pf. Qed.
Lemma of_wf v cps : Forall (cp_ok v) cps -> parse (cp_ok v) (in_form v) (tr (in_form v) cps) cps [].
Proof.
  intros. split; [now rewrite app_nil_r|]. split; [easy|]. apply bad_nil. auto using of_src.
Qed.

Lemma of_try v W s mem off cps rest : (1 <= W)%Z -> units v s -> off <= length mem -> (size mem < 2 ^ W)%Z ->
  parse (cp_ok v) (in_form v) s cps rest ->
  ((Z.of_nat (off + length (tr (out_form v) cps)) < 2 ^ W)%Z -> exists mem',
     firstn (off + length (tr (out_form v) cps)) mem' = firstn off mem ++ tr (out_form v) cps /\
     off + length (tr (out_form v) cps) <= length mem' /\ (size mem' < 2 ^ W)%Z /\
     (rest = [] -> try_of v W s mem off = Done (mem', off + length (tr (out_form v) cps), true)) /\
     (rest <> [] -> try_of v W s mem off = Done (mem', off, false))) /\
  ((2 ^ W <= Z.of_nat (off + length (tr (out_form v) cps)))%Z ->
     exists mem', try_of v W s mem off = Throw (mem', off, false) /\ firstn off mem' = firstn off mem).
Proof.
  intros. rewrite try_of_eq. apply (try_conv_ok (cp_ok v) (in_form v) (out_form v) (step_of v) (in_unit v)) with (rest := rest);
    intros; eauto using of_step, of_src, of_pf, of_dst.
  now apply (of_checked v) with (room := room).
Qed.

(* Strict conversion: the input is converted exactly when it consists of encoded valid
   code points.  The result is added to the buffer at the offset.  The only other failure
   is when the result would be too large. *)
Theorem unicode_strict_exact : forall v W s mem off, (1 <= W)%Z -> units v s ->
  off <= length mem -> (size mem < 2 ^ W)%Z ->
  (forall cps, Forall (cp_ok v) cps -> s = tr (in_form v) cps ->
     ((Z.of_nat (off + length (tr (out_form v) cps)) < 2 ^ W)%Z -> exists mem',
        try_of v W s mem off = Done (mem', off + length (tr (out_form v) cps), true) /\
        firstn (off + length (tr (out_form v) cps)) mem' = firstn off mem ++ tr (out_form v) cps) /\
     ((2 ^ W <= Z.of_nat (off + length (tr (out_form v) cps)))%Z -> exists mem',
        try_of v W s mem off = Throw (mem', off, false) /\ firstn off mem' = firstn off mem)) /\
  (~ wf v s -> (Z.of_nat (off + 4 * length s) < 2 ^ W)%Z -> exists mem',
     try_of v W s mem off = Done (mem', off, false) /\ firstn off mem' = firstn off mem).
Proof.
  intros v W s mem off HW Hs Ho Hm. split.
  - intros cps V ->. destruct (of_try v W _ mem off cps [] HW Hs Ho Hm (of_wf v cps V)) as [A1 A2].
    split; [|exact A2]. intros Hc. destruct (A1 Hc) as (mem' & F & _ & _ & R & _). eauto.
  - intros Hn Hc. destruct (of_parse v s Hs) as (cps & rest & P). pose proof P as (E & V & B).
    destruct (of_try v W s mem off cps rest HW Hs Ho Hm P) as [A1 _].
    assert (Hl : length (tr (out_form v) cps) <= 4 * length (tr (in_form v) cps)).
    { apply (len_tr_bound (cp_ok v)); intros; auto using of_src, of_dst. }
    pose proof (f_equal (@length Z) E) as El. rewrite app_length in El.
    destruct A1 as (mem' & F & F2 & _ & _ & R); [lia|]. exists mem'. split.
    + apply R. intros ->. apply Hn. exists cps. split; [easy|]. now rewrite E, app_nil_r.
    + assert (E2 : firstn off mem' = firstn off (firstn (off + length (tr (out_form v) cps)) mem')).
      { rewrite firstn_firstn. f_equal. lia. }
      rewrite E2, F. apply firstn_app_eq. rewrite firstn_length. lia.
Qed.

(* The euro sign and an emoji, after one unit that is already in the buffer *)
Example unicode_strict_exact_ex :
  try_of To16 64 [0xE2; 0x82; 0xAC; 0xF0; 0x9F; 0x98; 0x80]%Z [7]%Z 1 = Done ([7; 0x20AC; 0xD83D; 0xDE00]%Z, 4, true) /\
  try_of To16 64 [0xE2; 0x82; 0xAC; 0xF0; 0x9F; 0x98]%Z [7]%Z 1 = Done ([7; 0x20AC]%Z, 1, false) /\
  try_of To8 3 [0x20AC; 0xD83D; 0xDE00; 65]%Z [] 0 = Throw ([0xE2; 0x82; 0xAC; 0xF0; 0x9F; 0x98; 0x80]%Z, 0, false) /\
  Forall (cp_ok To8) [0x20AC; 0x1F600; 65]%Z /\
  [0x20AC; 0xD83D; 0xDE00; 65]%Z = tr (in_form To8) [0x20AC; 0x1F600; 65]%Z.
Proof.
  split; [reflexivity|]. split; [reflexivity|]. split; [reflexivity|]. split; [|reflexivity].
  repeat constructor; try discriminate; cbn; lia.
Qed.
Print Assumptions unicode_strict_exact.

Lemma Forall_valid_for v cps : narrow v = false -> Forall valid_cp cps <-> Forall (cp_ok v) cps.
Proof.
  intros E. unfold valid_for. rewrite E. split; intros H; eapply Forall_impl; try exact H; cbn; intros; intuition discriminate.
Qed.

Lemma utf8_units c : valid_cp c -> Forall (fun u => 0 <= u < 256)%Z (utf8 c).
Proof.
  intros Hc. unfold valid_cp in Hc. unfold utf8. change (64 ^ 2)%Z with 0x1000%Z. change (64 ^ 3)%Z with 0x40000%Z.
  cbn [tail_bytes]. repeat (match goal with |- context [if ?b then _ else _] => destruct b eqn:? end);
    repeat constructor; try (pose proof (Z.mod_pos_bound (c / 64 ^ Z.of_nat 0) 64); pose proof (Z.mod_pos_bound (c / 64 ^ Z.of_nat 1) 64);
     pose proof (Z.mod_pos_bound (c / 64 ^ Z.of_nat 2) 64); Zdm).
Qed.
Lemma utf16_units c : valid_cp c -> Forall (fun u => 0 <= u < 0x10000)%Z (utf16 c).
Proof. intros Hc. unfold valid_cp in Hc. unfold utf16. destruct (Z.ltb_spec c 0x10000); repeat constructor; Zdm. Qed.

Lemma tr_units (P : Z -> Prop) f cps : (forall c, valid_cp c -> Forall P (f c)) -> Forall valid_cp cps -> Forall P (tr f cps).
Proof. intros H. induction 1; cbn; [constructor|]. apply Forall_app. split; auto. Qed.

Lemma tr_ucs cps : tr ucs cps = cps.
Proof. induction cps; cbn; congruence. Qed.

Lemma len_bound v cps : length (tr (out_form v) cps) <= 4 * length cps.
Proof. induction cps as [|c cps IH]; [cbn; lia|]. cbn [flat_map length]. rewrite app_length. pose proof (of_dst v c). lia. Qed.

Lemma round_trip enc dec W cps : (1 <= W)%Z -> out_form enc = in_form dec -> in_form enc = ucs -> out_form dec = ucs ->
  narrow enc = false -> narrow dec = false -> (forall u, in_unit enc u <-> 0 <= u)%Z ->
  (forall c, valid_cp c -> Forall (in_unit dec) (in_form dec c)) ->
  Forall (fun c => 0 <= c)%Z cps -> (4 * size cps < 2 ^ W)%Z ->
  (Forall valid_cp cps ->
     exists m1 n1 m2 n2, try_of enc W cps [] 0 = Done (m1, n1, true) /\
       try_of dec W (firstn n1 m1) [] 0 = Done (m2, n2, true) /\ firstn n2 m2 = cps /\ firstn n1 m1 = tr (out_form enc) cps) /\
  (~ Forall valid_cp cps -> exists m, try_of enc W cps [] 0 = Done (m, 0, false)).
Proof.
  intros HW Ed Ei Eo Ne Nd Hu1 Hu2 Hp Hsz.
  assert (Hu : units enc cps). { eapply Forall_impl; [|exact Hp]. intros u. apply Hu1. }
  assert (Ecps : cps = tr (in_form enc) cps) by now rewrite Ei, tr_ucs.
  destruct (unicode_strict_exact enc W cps [] 0 HW Hu ltac:(cbn; lia) ltac:(cbn; lia)) as [A1 A2]. split.
  - intros V. pose proof (proj1 (Forall_valid_for enc cps Ne) V) as Ve. pose proof (proj1 (Forall_valid_for dec cps Nd) V) as Vd.
    destruct (A1 cps Ve Ecps) as [A _]. pose proof (len_bound enc cps) as Lb.
    destruct A as (m1 & R1 & F1); [lia|]. cbn [Nat.add firstn app] in *.
    exists m1, (length (tr (out_form enc) cps)). rewrite F1.
    destruct (unicode_strict_exact dec W (tr (out_form enc) cps) [] 0 HW) as [B1 _]; [|cbn; lia|cbn; lia|].
    { rewrite Ed. apply tr_units; auto. }
    destruct (B1 cps Vd) as [B _]; [now rewrite Ed|]. pose proof (len_bound dec cps) as Lb2.
    destruct B as (m2 & R2 & F2); [lia|]. cbn [Nat.add firstn app] in *.
    exists m2, (length (tr (out_form dec) cps)). rewrite F2, Eo, tr_ucs in *. now rewrite R1, R2.
  - intros V. destruct A2 as (m & R & _); [| lia |eauto].
    intros (cps' & V' & E'). apply V. rewrite Ei, tr_ucs in E'. subst cps'. now apply (Forall_valid_for enc cps Ne).
Qed.

(* C17 *)
Theorem utf8_round_trip : forall W cps, (1 <= W)%Z -> Forall (fun c => 0 <= c)%Z cps -> (4 * size cps < 2 ^ W)%Z ->
  (Forall valid_cp cps ->
     exists m1 n1 m2 n2, try_encode_utf8 W cps [] 0 = Done (m1, n1, true) /\
       try_decode_utf8 false W (firstn n1 m1) [] 0 = Done (m2, n2, true) /\ firstn n2 m2 = cps /\
       firstn n1 m1 = tr utf8 cps) /\
  (~ Forall valid_cp cps -> exists m, try_encode_utf8 W cps [] 0 = Done (m, 0, false)).
Proof.
  intros W cps HW Hp Hs. apply (round_trip Enc8 (Dec8 false)); cbn; auto; [easy|]. apply utf8_units.
Qed.
Example utf8_round_trip_ex :
  try_encode_utf8 64 [0x24; 0xA3; 0x20AC; 0x10348]%Z [] 0 =
    Done ([0x24; 0xC2; 0xA3; 0xE2; 0x82; 0xAC; 0xF0; 0x90; 0x8D; 0x88; 0; 0; 0]%Z, 10, true) /\
  try_decode_utf8 false 64 [0x24; 0xC2; 0xA3; 0xE2; 0x82; 0xAC; 0xF0; 0x90; 0x8D; 0x88]%Z [] 0 =
    Done ([0x24; 0xA3; 0x20AC; 0x10348]%Z, 4, true) /\
  try_encode_utf8 64 [0x24; 0xD800]%Z [] 0 = Done ([0x24]%Z, 0, false) /\
  Forall valid_cp [0x24; 0xA3; 0x20AC; 0x10348]%Z.
Proof. split; [reflexivity|]. split; [reflexivity|]. split; [reflexivity|]. repeat constructor; lia. Qed.
Print Assumptions utf8_round_trip.

(* C19 *)
Theorem utf16_round_trip : forall W cps, (1 <= W)%Z -> Forall (fun c => 0 <= c)%Z cps -> (4 * size cps < 2 ^ W)%Z ->
  (Forall valid_cp cps ->
     exists m1 n1 m2 n2, try_encode_utf16 W cps [] 0 = Done (m1, n1, true) /\
       try_decode_utf16 false W (firstn n1 m1) [] 0 = Done (m2, n2, true) /\ firstn n2 m2 = cps /\
       firstn n1 m1 = tr utf16 cps) /\
  (~ Forall valid_cp cps -> exists m, try_encode_utf16 W cps [] 0 = Done (m, 0, false)).
Proof.
  intros W cps HW Hp Hs. apply (round_trip Enc16 (Dec16 false)); cbn; auto; [easy|].
  intros c Hc. eapply Forall_impl; [|apply utf16_units; exact Hc]. cbn. lia.
Qed.
Example utf16_round_trip_ex :
  try_encode_utf16 64 [0x24; 0x20AC; 0x10437; 0x10FFFD]%Z [] 0 =
    Done ([0x24; 0x20AC; 0xD801; 0xDC37; 0xDBFF; 0xDFFD]%Z, 6, true) /\
  try_decode_utf16 false 64 [0x24; 0x20AC; 0xD801; 0xDC37; 0xDBFF; 0xDFFD]%Z [] 0 =
    Done ([0x24; 0x20AC; 0x10437; 0x10FFFD]%Z, 4, true) /\
  Forall valid_cp [0x24; 0x20AC; 0x10437; 0x10FFFD]%Z.
Proof. split; [reflexivity|]. split; [reflexivity|]. repeat constructor; lia. Qed.
Print Assumptions utf16_round_trip.

Lemma decode_exact v W s : (1 <= W)%Z -> out_form v = ucs -> narrow v = false -> units v s -> (4 * size s < 2 ^ W)%Z ->
  exists m n b, try_of v W s [] 0 = Done (m, n, b) /\
    (b = true <-> exists cps, Forall valid_cp cps /\ s = tr (in_form v) cps) /\
    (b = false -> n = 0) /\
    (forall cps, Forall valid_cp cps -> s = tr (in_form v) cps -> firstn n m = cps).
Proof.
  intros HW Eo Nv Hs Hsz. destruct (of_parse v s Hs) as (cps & rest & P). pose proof P as (E & V & B).
  destruct (of_try v W s [] 0 cps rest HW Hs ltac:(cbn; lia) ltac:(cbn; lia) P) as [A1 _].
  assert (Hl : length (tr (out_form v) cps) <= 4 * length (tr (in_form v) cps)).
  { apply (len_tr_bound (cp_ok v)); intros; auto using of_src, of_dst. }
  pose proof (f_equal (@length Z) E) as El. rewrite app_length in El.
  destruct A1 as (m & F & _ & _ & R1 & R2); [lia|]. cbn [Nat.add firstn app] in *.
  assert (Hu : forall cps', Forall valid_cp cps' -> s = tr (in_form v) cps' -> cps' = cps /\ rest = []).
  { intros cps' V' E'. destruct (of_unique v s cps' [] cps rest); [|easy|auto]. rewrite E'. apply of_wf. now apply Forall_valid_for. }
  destruct rest as [|x rest].
  - exists m, (length (tr (out_form v) cps)), true. split; [now apply R1|]. split; [|split; [easy|]].
    + split; [|easy]. intros _. exists cps. split; [now apply (Forall_valid_for v)|]. now rewrite E, app_nil_r.
    + intros cps' V' E'. destruct (Hu cps' V' E') as [-> _]. rewrite F, Eo. apply tr_ucs.
  - exists m, 0, false. split; [now apply R2|]. split; [|split; [easy|]].
    + split; [easy|]. intros (cps' & V' & E'). destruct (Hu cps' V' E'); discriminate.
    + intros cps' V' E'. destruct (Hu cps' V' E'); discriminate.
Qed.

(* C18: decoding of UTF-8 succeeds exactly on the concatenations of encodings of valid
   code points, and on these gives the code points. *)
Theorem utf8_decode_exact : forall W s, (1 <= W)%Z -> Forall (fun u => 0 <= u < 256)%Z s -> (4 * size s < 2 ^ W)%Z ->
  exists m n b, try_decode_utf8 false W s [] 0 = Done (m, n, b) /\
    (b = true <-> exists cps, Forall valid_cp cps /\ s = tr utf8 cps) /\
    (b = false -> n = 0) /\
    (forall cps, Forall valid_cp cps -> s = tr utf8 cps -> firstn n m = cps).
Proof. intros. now apply (decode_exact (Dec8 false)). Qed.
Print Assumptions utf8_decode_exact.

Lemma utf8_row c s : valid_cp c -> table_3_7 s -> table_3_7 (utf8 c ++ s).
Proof.
  intros Hc Hs. unfold valid_cp in Hc.
  destruct (Z.ltb_spec c 0x80). { rewrite utf8_1 by lia. apply row_1; [unfold within; lia|easy]. }
  destruct (Z.ltb_spec c 0x800). { rewrite utf8_2 by lia. apply row_2; [unfold within; Zdm..|easy]. }
  destruct (Z.ltb_spec c 0x10000).
  { rewrite utf8_3 by lia. cbn [app].
    destruct (Z.ltb_spec c 0x1000).
    { replace (0xE0 + c / 0x1000)%Z with 0xE0%Z by Zdm. apply row_3; [unfold within; Zdm..|easy]. }
    destruct (Z.ltb_spec c 0xD000). { apply row_4; [unfold within; Zdm..|easy]. }
    destruct (Z.ltb_spec c 0xE000).
    { replace (0xE0 + c / 0x1000)%Z with 0xED%Z by Zdm. apply row_5; [unfold within; Zdm..|easy]. }
    apply row_6; [unfold within; Zdm..|Zdm|easy]. }
  rewrite utf8_4 by lia. cbn [app].
  destruct (Z.ltb_spec c 0x40000).
  { replace (0xF0 + c / 0x40000)%Z with 0xF0%Z by Zdm. apply row_7; [unfold within; Zdm..|easy]. }
  destruct (Z.ltb_spec c 0x100000). { apply row_8; [unfold within; Zdm..|easy]. }
  replace (0xF0 + c / 0x40000)%Z with 0xF4%Z by Zdm. apply row_9; [unfold within; Zdm..|easy].
Qed.

Lemma utf8_of2 a b : (0xC2 <= a <= 0xDF)%Z -> (0x80 <= b <= 0xBF)%Z ->
  exists c, utf8 c = [a; b] /\ c = ((a - 0xC0) * 64 + (b - 0x80))%Z.
Proof.
  intros. eexists. split; [|reflexivity]. rewrite utf8_2 by lia. repeat apply (f_equal2 cons); [Zdm..|easy].
Qed.
Lemma utf8_of3 a b c : (0xE0 <= a <= 0xEF)%Z -> (0x80 <= b <= 0xBF)%Z -> (0x80 <= c <= 0xBF)%Z ->
  (a = 0xE0 -> 0xA0 <= b)%Z ->
  exists p, utf8 p = [a; b; c] /\ p = ((a - 0xE0) * 4096 + (b - 0x80) * 64 + (c - 0x80))%Z.
Proof.
  intros. eexists. split; [|reflexivity]. rewrite utf8_3 by lia. repeat apply (f_equal2 cons); [Zdm..|easy].
Qed.
Lemma utf8_of4 a b c d : (0xF0 <= a <= 0xF4)%Z -> (0x80 <= b <= 0xBF)%Z -> (0x80 <= c <= 0xBF)%Z -> (0x80 <= d <= 0xBF)%Z ->
  (a = 0xF0 -> 0x90 <= b)%Z ->
  exists p, utf8 p = [a; b; c; d] /\ p = ((a - 0xF0) * 262144 + (b - 0x80) * 4096 + (c - 0x80) * 64 + (d - 0x80))%Z.
Proof.
  intros. eexists. split; [|reflexivity]. rewrite utf8_4 by lia. repeat apply (f_equal2 cons); [Zdm..|easy].
Qed.

Lemma row_utf8 s : table_3_7 s -> exists cps, Forall valid_cp cps /\ s = tr utf8 cps.
Proof.
  assert (Hcons : forall c s u, utf8 c = u -> valid_cp c -> (exists cps, Forall valid_cp cps /\ s = tr utf8 cps) ->
    exists cps, Forall valid_cp cps /\ u ++ s = tr utf8 cps).
  { intros c s' u <- Hc (cps & V & ->). exists (c :: cps). split; [now constructor|easy]. }
  induction 1; unfold within in *; [exists []; split; [constructor|easy]|..].
  - apply (Hcons a s [a]); [now apply utf8_1; lia|unfold valid_cp; lia|easy].
  - destruct (utf8_of2 a b) as (p & E & Ep); [lia..|]. apply (Hcons p s [a; b]); [easy|unfold valid_cp; lia|easy].
  - destruct (utf8_of3 0xE0 b c) as (p & E & Ep); [lia..|]. apply (Hcons p s [0xE0; b; c]%Z); [easy|unfold valid_cp; lia|easy].
  - destruct (utf8_of3 a b c) as (p & E & Ep); [lia..|]. apply (Hcons p s [a; b; c]%Z); [easy|unfold valid_cp; lia|easy].
  - destruct (utf8_of3 0xED b c) as (p & E & Ep); [lia..|]. apply (Hcons p s [0xED; b; c]%Z); [easy|unfold valid_cp; lia|easy].
  - destruct (utf8_of3 a b c) as (p & E & Ep); [lia..|]. apply (Hcons p s [a; b; c]%Z); [easy|unfold valid_cp; lia|easy].
  - destruct (utf8_of4 0xF0 b c d) as (p & E & Ep); [lia..|]. apply (Hcons p s [0xF0; b; c; d]%Z); [easy|unfold valid_cp; lia|easy].
  - destruct (utf8_of4 a b c d) as (p & E & Ep); [lia..|]. apply (Hcons p s [a; b; c; d]%Z); [easy|unfold valid_cp; lia|easy].
  - destruct (utf8_of4 0xF4 b c d) as (p & E & Ep); [lia..|]. apply (Hcons p s [0xF4; b; c; d]%Z); [easy|unfold valid_cp; lia|easy].
Qed.

(* C18, by byte ranges *)
Theorem utf8_decode_accepts : forall W s, (1 <= W)%Z -> Forall (fun u => 0 <= u < 256)%Z s -> (4 * size s < 2 ^ W)%Z ->
  exists m n b, try_decode_utf8 false W s [] 0 = Done (m, n, b) /\ (b = true <-> table_3_7 s).
Proof.
  intros W s HW Hs Hsz. destruct (utf8_decode_exact W s HW Hs Hsz) as (m & n & b & R & Hb & _).
  exists m, n, b. split; [easy|]. rewrite Hb. split.
  - intros (cps & V & ->). clear -V. induction V; [constructor|]. cbn. now apply utf8_row.
  - apply row_utf8.
Qed.
(* Overlong forms, surrogates, values above U+10FFFF and truncated sequences *)
Example utf8_decode_ex :
  let accepted s := match try_decode_utf8 false 64 s [] 0 with Done (_, _, b) => b | _ => false end in
  map accepted [[0xC0; 0x80]; [0xC1; 0xBF]; [0xE0; 0x9F; 0xBF]; [0xED; 0xA0; 0x80]; [0xF0; 0x8F; 0xBF; 0xBF];
                [0xF4; 0x90; 0x80; 0x80]; [0xE2; 0x82]; [0x80]; [0xEF; 0xBF; 0xBE]]%Z = repeat false 9 /\
  map accepted [[0xC2; 0x80]; [0xE0; 0xA0; 0x80]; [0xED; 0x9F; 0xBF]; [0xF0; 0x90; 0x80; 0x80]; [0xF4; 0x8F; 0xBF; 0xBF];
                [0xEF; 0xBF; 0xBD]; []]%Z = repeat true 7.
Proof. split; reflexivity. Qed.
Print Assumptions utf8_decode_accepts.

(* C19 *)
Theorem utf16_decode_exact : forall W s, (1 <= W)%Z -> Forall (fun u => 0 <= u)%Z s -> (4 * size s < 2 ^ W)%Z ->
  exists m n b, try_decode_utf16 false W s [] 0 = Done (m, n, b) /\
    (b = true <-> exists cps, Forall valid_cp cps /\ s = tr utf16 cps) /\
    (b = false -> n = 0) /\
    (forall cps, Forall valid_cp cps -> s = tr utf16 cps -> firstn n m = cps).
Proof. intros. now apply (decode_exact (Dec16 false)). Qed.
Example utf16_decode_ex :
  let accepted s := match try_decode_utf16 false 64 s [] 0 with Done (_, _, b) => b | _ => false end in
  map accepted [[0xD800]; [0xDC00]; [0xD800; 0x41]; [0xDC00; 0xD800]; [0x41; 0xFFFE]; [0x10000]]%Z = repeat false 6 /\
  map accepted [[0xD800; 0xDC00]; [0x41; 0xDBFF; 0xDFFF; 0x42]; [0xD7FF; 0xE000; 0xFFFD]]%Z = repeat true 3.
Proof. split; reflexivity. Qed.
Print Assumptions utf16_decode_exact.

(* C20 *)
Lemma transcode tc dec enc W s : (1 <= W)%Z -> in_form tc = in_form dec -> out_form dec = ucs -> in_form enc = ucs ->
  out_form enc = out_form tc -> narrow tc = false -> narrow dec = false -> narrow enc = false ->
  in_unit dec = in_unit tc -> (forall u, in_unit enc u <-> 0 <= u)%Z ->
  units tc s -> (16 * size s < 2 ^ W)%Z ->
  (exists m1 n1 m2 n2 m3, try_of dec W s [] 0 = Done (m1, n1, true) /\
     try_of enc W (firstn n1 m1) [] 0 = Done (m2, n2, true) /\
     try_of tc W s [] 0 = Done (m3, n2, true) /\ firstn n2 m3 = firstn n2 m2) \/
  (exists m1 m3, try_of dec W s [] 0 = Done (m1, 0, false) /\ try_of tc W s [] 0 = Done (m3, 0, false)).
Proof.
  intros HW Ei Eo Ei2 Eo2 N1 N2 N3 Hu Hu2 Hs Hsz.
  assert (Hs2 : units dec s) by now rewrite Hu.
  destruct (of_parse tc s Hs) as (cps & rest & P). pose proof P as (E & V & B).
  assert (P2 : parse (cp_ok dec) (in_form dec) s cps rest) by (rewrite N2, <- N1, <- Ei; exact P).
  assert (Hl : length (tr (out_form tc) cps) <= 4 * length (tr (in_form tc) cps)).
  { apply (len_tr_bound (cp_ok tc)); intros; auto using of_src, of_dst. }
  assert (Hl2 : length (tr (out_form dec) cps) <= 4 * length (tr (in_form dec) cps)).
  { apply (len_tr_bound (cp_ok dec)); intros; auto using of_src, of_dst. now rewrite N2, <- N1. }
  pose proof (f_equal (@length Z) E) as El. rewrite app_length in El. rewrite <- Ei in Hl2.
  destruct (of_try tc W s [] 0 cps rest HW Hs ltac:(cbn; lia) ltac:(cbn; lia) P) as [A1 _].
  destruct A1 as (m3 & F3 & _ & _ & R3 & R3'); [lia|].
  destruct (of_try dec W s [] 0 cps rest HW Hs2 ltac:(cbn; lia) ltac:(cbn; lia) P2) as [A2 _].
  destruct A2 as (m1 & F1 & _ & _ & R1 & R1'); [lia|]. cbn [Nat.add firstn app] in *.
  destruct rest as [|x rest].
  - left. rewrite Eo, tr_ucs in *.
    pose proof (proj2 (Forall_valid_for tc cps N1) V) as V0. pose proof (proj1 (Forall_valid_for enc cps N3) V0) as Ve.
    assert (P4 : parse (cp_ok enc) (in_form enc) cps cps []).
    { pose proof (of_wf enc cps Ve) as H. rewrite Ei2 in *. now rewrite tr_ucs in H. }
    assert (Hue : units enc cps). { eapply Forall_impl; [|exact V0]. intros u Hv. apply Hu2. unfold valid_cp in Hv. lia. }
    destruct (of_try enc W cps [] 0 cps [] HW Hue ltac:(cbn; lia) ltac:(cbn; lia) P4) as [A4 _].
    pose proof (len_bound enc cps). destruct A4 as (m2 & F2 & _ & _ & R2 & _); [lia|]. cbn [Nat.add firstn app] in *.
    rewrite Eo2 in *.
    exists m1, (length cps), m2, (length (tr (out_form tc) cps)), m3. rewrite F1, F2, F3. auto.
  - right. exists m1, m3. split; [now apply R1'|now apply R3'].
Qed.

Theorem utf8_to_utf16_exact : forall W s, (1 <= W)%Z -> Forall (fun u => 0 <= u < 256)%Z s -> (16 * size s < 2 ^ W)%Z ->
  (exists m1 n1 m2 n2 m3, try_decode_utf8 false W s [] 0 = Done (m1, n1, true) /\
     try_encode_utf16 W (firstn n1 m1) [] 0 = Done (m2, n2, true) /\
     try_utf8_to_utf16 W s [] 0 = Done (m3, n2, true) /\ firstn n2 m3 = firstn n2 m2) \/
  (exists m1 m3, try_decode_utf8 false W s [] 0 = Done (m1, 0, false) /\ try_utf8_to_utf16 W s [] 0 = Done (m3, 0, false)).
Proof. intros. now apply (transcode To16 (Dec8 false) Enc16). Qed.
Theorem utf16_to_utf8_exact : forall W s, (1 <= W)%Z -> Forall (fun u => 0 <= u)%Z s -> (16 * size s < 2 ^ W)%Z ->
  (exists m1 n1 m2 n2 m3, try_decode_utf16 false W s [] 0 = Done (m1, n1, true) /\
     try_encode_utf8 W (firstn n1 m1) [] 0 = Done (m2, n2, true) /\
     try_utf16_to_utf8 W s [] 0 = Done (m3, n2, true) /\ firstn n2 m3 = firstn n2 m2) \/
  (exists m1 m3, try_decode_utf16 false W s [] 0 = Done (m1, 0, false) /\ try_utf16_to_utf8 W s [] 0 = Done (m3, 0, false)).
Proof. intros. now apply (transcode To8 (Dec16 false) Enc8). Qed.
Example utf_transcoding_ex :
  let result r := match r with Done (m, n, b) => Some (firstn n m, b) | _ => None end in
  result (try_utf8_to_utf16 64 [0x41; 0xC3; 0xA9; 0xF0; 0x9F; 0x98; 0x80]%Z [] 0) = Some ([0x41; 0xE9; 0xD83D; 0xDE00]%Z, true) /\
  result (try_utf16_to_utf8 64 [0x41; 0xE9; 0xD83D; 0xDE00]%Z [] 0) = Some ([0x41; 0xC3; 0xA9; 0xF0; 0x9F; 0x98; 0x80]%Z, true) /\
  result (try_utf8_to_utf16 64 [0x41; 0xC3]%Z [] 0) = Some ([], false).
Proof. split; [reflexivity|]. split; reflexivity. Qed.
Print Assumptions utf8_to_utf16_exact.
Print Assumptions utf16_to_utf8_exact.

(* C22: Incremental conversion.  The input arrives in pieces; each call is given what the
   previous call left followed by the next piece, and a new output buffer of any size. *)
Definition calls_of (v : conversion) := session (step_of v).

Theorem unicode_resumption : forall v calls s cps rest, calls <> [] ->
  s = concat (map fst calls) -> units v s ->
  s = tr (in_form v) cps ++ rest -> Forall (cp_ok v) cps -> stuck (cp_ok v) (in_form v) rest ->
  exists k exhausted error,
    calls_of v [] calls = Some (tr (in_form v) (skipn k cps) ++ rest, tr (out_form v) (firstn k cps), exhausted, error) /\
    k <= length cps /\
    (exhausted = true \/ error = true -> k = length cps) /\
    (exhausted = true -> error = false) /\
    (error = true -> rest <> []) /\
    (exhausted = false /\ error = false -> k < length cps /\
       exists used, used <= snd (last calls ([], 0)) < used + length (out_form v (nth k cps 0%Z))).
Proof.
  intros v calls s cps rest Hne Es Hs E V B. unfold calls_of.
  destruct (session_ok (cp_ok v) (in_form v) (out_form v) (step_of v) (in_unit v)) with (checked := checked_of v) (replacement := replacement_of v)
    (calls := calls) (pending := @nil Z) (cps := cps) (rest := rest)
    as (k & ex & er & R & K1 & K2 & K3); intros; eauto using of_step, of_src, of_pf, of_dst, of_more, of_rep.
  { now apply (of_checked v) with (room := room). }
  { now rewrite app_nil_l, <- Es. } { rewrite app_nil_l, <- Es. now split. }
  exists k, ex, er. split; [easy|]. split; [easy|]. split; [intros H; now apply K2|]. split; [|split; [|easy]].
  - intros H. destruct (K2 (or_introl H)) as (_ & H1 & _). destruct er; [subst; discriminate|easy].
  - intros H Hr. destruct (K2 (or_intror H)) as (_ & _ & H1 & _). rewrite H in H1. discriminate (H1 Hr).
Qed.
(* UTF-8 in pieces that split the characters, to UTF-16 in output buffers of 1 and 2 units *)
Example unicode_resumption_ex :
  calls_of To16 [] [([0x41; 0xE2]%Z, 2); ([0x82]%Z, 5); ([0xAC; 0xF0; 0x9F]%Z, 0); ([], 1); ([0x98; 0x80]%Z, 1); ([], 2)] =
    Some ([], [0x41; 0x20AC; 0xD83D; 0xDE00]%Z, true, false) /\
  stuck (cp_ok To16) (in_form To16) [].
Proof. split; [reflexivity|]. apply bad_nil. intros. apply of_src. Qed.
Print Assumptions unicode_resumption.

(* Every input has such a decomposition *)
Theorem unicode_decomposition : forall v s, units v s ->
  exists cps rest, (s = tr (in_form v) cps ++ rest /\ Forall (cp_ok v) cps /\ stuck (cp_ok v) (in_form v) rest) /\
    forall cps' rest', s = tr (in_form v) cps' ++ rest' -> Forall (cp_ok v) cps' -> stuck (cp_ok v) (in_form v) rest' ->
      cps' = cps /\ rest' = rest.
Proof.
  intros v s Hs. destruct (of_parse v s Hs) as (cps & rest & P). exists cps, rest. split; [exact P|].
  intros. apply (of_unique v s cps' rest' cps rest); [now split|easy].
Qed.
Print Assumptions unicode_decomposition.

(* C21 *)
Theorem unicode_lenient_partial : forall v W cps mem off, (1 <= W)%Z -> units v (tr (in_form v) cps) -> Forall (cp_ok v) cps ->
  off <= length mem -> (size mem < 2 ^ W)%Z -> (Z.of_nat (off + length (tr (out_form v) cps)) < 2 ^ W)%Z ->
  exists mem', lenient_of v W (tr (in_form v) cps) mem off = Done (mem', off + length (tr (out_form v) cps)) /\
    firstn (off + length (tr (out_form v) cps)) mem' = firstn off mem ++ tr (out_form v) cps.
Proof.
  intros v W cps mem off HW Hs V Ho Hm Hc. rewrite lenient_of_eq.
  apply (conv_l_good (cp_ok v) (in_form v) (out_form v) (step_of v) (in_unit v)); intros; eauto using of_step, of_src, of_pf, of_dst.
  now apply (of_checked v) with (room := room).
  apply of_rep.
Qed.
Example unicode_lenient_partial_ex :
  lenient_of (Dec8 false) 64 [0x41; 0xC3; 0xA9]%Z [7; 8]%Z 1 = Done ([7; 0x41; 0xE9]%Z, 3).
Proof. reflexivity. Qed.
Print Assumptions unicode_lenient_partial.

(* The result is wrong for every malformed input, since the replacement is not added at
   the end, but at the offset where the conversion began. *)
Theorem unicode_lenient_refuted : forall v W s mem off, (1 <= W)%Z -> units v s -> ~ wf v s ->
  off <= length mem -> (size mem < 2 ^ W)%Z -> (Z.of_nat (off + 4 * length s) < 2 ^ W)%Z ->
  exists mem' n, lenient_of v W s mem off = Done (mem', off + n) /\
    (forall out, mended (cp_ok v) (in_form v) (out_form v) (replacement_of v) s out -> n < length out) /\
    ~ mended (cp_ok v) (in_form v) (out_form v) (replacement_of v) s (skipn off (firstn (off + n) mem')).
Proof.
  intros v W s mem off HW Hs Hn Ho Hm Hc. rewrite lenient_of_eq.
  destruct (conv_l_ok (cp_ok v) (in_form v) (out_form v) (step_of v) (in_unit v)) with (W := W) (checked := checked_of v)
    (resync := resync_of v) (replacement := replacement_of v) (s := s) (mem := mem) (o := off) as (mem' & n & R & Hw);
    intros; eauto using of_step, of_src, of_pf, of_dst, of_resync, of_rep.
  { now apply (of_checked v) with (room := room). }
  assert (H : forall out, mended (cp_ok v) (in_form v) (out_form v) (replacement_of v) s out -> n < length out).
  { intros out Hm'. destruct (mended_walk (cp_ok v) (in_form v) (out_form v) (step_of v) (in_unit v) (checked_of v) (of_checked v)
      (replacement_of v) (of_rep v) s out Hm') as (n' & W1 & W2 & W3).
    assert (n = n'). { eapply (walk_fun (cp_ok v) (in_form v) (out_form v) (step_of v) (in_unit v)) with (checked := checked_of v) (replacement := replacement_of v);
        eauto using of_pf, of_rep, of_checked. intros. apply of_src. }
    subst n'. destruct (Nat.eq_dec n (length out)) as [En|En]; [|lia]. exfalso. apply Hn, W3, En. }
  exists mem', n. split; [easy|]. split; [easy|]. intros Hm'. apply H in Hm'.
  rewrite skipn_length, firstn_length in Hm'. lia.
Qed.
(* "A", an invalid byte and "B": the A is overwritten, and the B is not followed by anything *)
Example unicode_lenient_refuted_ex :
  lenient_of (Dec8 false) 64 [0x41; 0xFF; 0x42]%Z [] 0 = Done ([0xFFFD; 0x42]%Z, 2) /\
  mended (cp_ok (Dec8 false)) utf8 ucs [0xFFFD]%Z [0x41; 0xFF; 0x42]%Z [0x41; 0xFFFD; 0x42]%Z.
Proof.
  split; [reflexivity|].
  apply (mended_good (cp_ok (Dec8 false)) utf8 ucs [0xFFFD]%Z 0x41%Z [0xFF; 0x42]%Z [0xFFFD; 0x42]%Z); [split; [unfold valid_cp; lia|easy]|].
  apply (mended_bad (cp_ok (Dec8 false)) utf8 ucs [0xFFFD]%Z [0xFF]%Z [0x42]%Z [0x42]%Z); [easy| |].
  - intros p1 p2 E Hp2. destruct p1 as [|x [|y p1]].
    + cbn in E. subst p2. cbn [app]. apply (req_stop utf8 ucs read8 byte (decode_utf8_step false) false) with (a := Bad);
        auto using read8_good, decode_utf8_read; [repeat constructor; lia].
    + cbn in E. injection E as _ E. now subst p2.
    + discriminate.
  - apply (mended_good (cp_ok (Dec8 false)) utf8 ucs [0xFFFD]%Z 0x42%Z [] []); [split; [unfold valid_cp; lia|easy]|constructor].
Qed.
Print Assumptions unicode_lenient_refuted.

(* C46: When the units of the input are wider than 8 bits, a sequence that contains a unit
   that is not a byte should be rejected.  What happens is that the upper bits of all but
   the first unit of a character are ignored. *)
Definition seen_as (u : Z) : Z :=
  if (u <? 256)%Z then u
  else if ((0x80 <=? u mod 256) && (u mod 256 <? 0xC0))%Z then u mod 256 else 0xFF%Z.

Lemma conv_same step s s' : length s = length s' -> (forall i room, step (skipn i s) room = step (skipn i s') room) ->
  forall W checked mem off, try_conv step W checked s mem off = try_conv step W checked s' mem off.
Proof.
  intros Hl Hs W checked.
  assert (Hrun : forall fuel i room, 
    match run step fuel (skipn i s) room, run step fuel (skipn i s') room with
    | Some (r, out, ex, er), Some (r', out', ex', er') => length r = length r' /\ out = out' /\ ex = ex' /\ er = er'
    | None, None => True
    | _, _ => False
    end).
  { induction fuel as [|fuel IH]; intros i room; cbn [run]; [easy|]. rewrite Hs.
    assert (Hli : length (skipn i s) = length (skipn i s')) by (rewrite !skipn_length; lia).
    destruct (step (skipn i s') room) as [u n| | |]; [|easy..]. rewrite Hli.
    destruct ((length u <=? room) && (n <=? length (skipn i s'))); [|easy]. rewrite !skipn_add.
    specialize (IH (i + n) (room - length u)).
    destruct (run step fuel (skipn (i + n) s) (room - length u)) as [[[[r o] x] e]|],
             (run step fuel (skipn (i + n) s') (room - length u)) as [[[[r' o'] x'] e']|]; cbn [obind]; try easy.
    destruct IH as (-> & -> & -> & ->). easy. }
  assert (Hincr : forall out i o, incr step s out i o = incr step s' out i o).
  { intros out i o. unfold incr. rewrite Hl. destruct (_ && _); [|easy].
    specialize (Hrun (length s' + 1) i (length out - o)).
    destruct (run step (length s' + 1) (skipn i s) (length out - o)) as [[[[r u] x] e]|],
             (run step (length s' + 1) (skipn i s') (length out - o)) as [[[[r' u'] x'] e']|]; cbn [obind]; try easy.
    destruct Hrun as (-> & -> & -> & ->). easy. }
  assert (Hloop : forall fuel st, conv_a_loop step W checked fuel s st = conv_a_loop step W checked fuel s' st).
  { induction fuel as [|fuel IH]; intros [[mem i] o]; cbn [conv_a_loop]; [easy|]. rewrite Hincr, Hl.
    destruct (incr step s' mem i o) as [[[[[m2 i2] o2] x] e]|]; [|easy].
    destruct x; [easy|]. destruct (_ && _); [easy|]. destruct e; [easy|]. cbn [negb].
    destruct (expand_a _ _ _ _ _ _ _) as [[m3 x]| |]; [|easy..]. apply IH. }
  intros mem off. unfold try_conv, conv_a. rewrite Hl, Hloop. easy.
Qed.

Lemma seen_cont u : continuation (seen_as u) = continuation u.
Proof.
  rewrite !continuation_spec. unfold seen_as. destruct (Z.ltb_spec u 256); [easy|].
  destruct ((0x80 <=? u mod 256) && (u mod 256 <? 0xC0))%Z eqn:E; [|reflexivity]. rewrite Z.mod_mod by lia. exact E.
Qed.

Lemma seen_low u : continuation u = true -> (seen_as u mod 64 = u mod 64)%Z.
Proof.
  rewrite continuation_spec. unfold seen_as. intros H. destruct (Z.ltb_spec u 256); [easy|]. rewrite H.
  change 256%Z with (64 * 4)%Z. rewrite Z.rem_mul_r by lia. rewrite Z.add_mod, (Z.mul_comm 64), Z.mod_mul by lia.
  rewrite Z.add_0_r, !Z.mod_mod by lia. easy.
Qed.

Lemma seen_head u : (0 <= u)%Z -> (u < 256)%Z -> seen_as u = u.
Proof. intros. unfold seen_as. now replace (u <? 256)%Z with true by lia. Qed.

Lemma seen_step reduced s room : Forall (fun u => 0 <= u)%Z s ->
  decode_utf8_step reduced s room = decode_utf8_step reduced (map seen_as s) room.
Proof.
  intros Hs. rewrite !decode_utf8_read. set (emit := emitter _ _ _).
  destruct s as [|u t]; [easy|]. inversion Hs as [|? ? Hu Ht]; subst.
  destruct (Z.ltb_spec u 256).
  - cbn [map read8]. rewrite (seen_head u) by lia.
    destruct (u <? 0x80)%Z; [easy|]. destruct (0xC0 <=? u)%Z; [|easy].
    destruct (u <? 0xE0)%Z.
    { destruct t as [|v t]; [easy|]. cbn [map]. rewrite seen_cont. destruct (continuation v) eqn:E; [|easy].
      rewrite !value2, seen_low by easy. easy. }
    destruct (u <? 0xF0)%Z.
    { destruct t as [|v [|w t]]; [easy..|]. cbn [map]. rewrite !seen_cont. cbv zeta.
      destruct (continuation v) eqn:E; [|easy]. destruct (continuation w) eqn:E2; [|easy].
      rewrite !value3, !seen_low by easy. easy. }
    destruct (u <? 0xF8)%Z; [|easy].
    destruct t as [|v [|w [|x t]]]; [easy..|]. cbn [map]. rewrite !seen_cont. cbv zeta.
    destruct (continuation v) eqn:E; [|easy]. destruct (continuation w) eqn:E2; [|easy]. destruct (continuation x) eqn:E3; [|easy].
    rewrite !value4, !seen_low by easy. easy.
  - assert (H1 : read8 emit (u :: t) = Bad).
    { cbn [read8]. replace (u <? 0x80)%Z with false by lia. replace (0xC0 <=? u)%Z with true by lia.
      replace (u <? 0xE0)%Z with false by lia. replace (u <? 0xF0)%Z with false by lia. now replace (u <? 0xF8)%Z with false by lia. }
    rewrite H1. cbn [map]. unfold seen_as at 1. replace (u <? 256)%Z with false by lia.
    destruct ((0x80 <=? u mod 256) && (u mod 256 <? 0xC0))%Z eqn:E; [|easy]. cbn [read8].
    replace (u mod 256 <? 0x80)%Z with false by lia. now replace (0xC0 <=? u mod 256)%Z with false by lia.
Qed.

Theorem utf8_wide_units_exact : forall reduced W s mem off, Forall (fun u => 0 <= u)%Z s ->
  try_decode_utf8 reduced W s mem off = try_decode_utf8 reduced W (map seen_as s) mem off.
Proof.
  intros reduced W s mem off Hs. unfold try_decode_utf8. apply conv_same; [now rewrite map_length|].
  intros i room. rewrite seen_step; [|now apply Forall_skipn]. f_equal. clear. revert i.
  induction s; intros [|i]; cbn; auto.
Qed.
Print Assumptions utf8_wide_units_exact.

Lemma utf8_last c : valid_cp c -> (0x80 <= c)%Z -> utf8 c = removelast (utf8 c) ++ [0x80 + c mod 64]%Z /\
  last (utf8 c) 0%Z = (0x80 + c mod 64)%Z.
Proof.
  intros Hc H. unfold valid_cp in Hc. destruct (Z.ltb_spec c 0x800); [rewrite utf8_2 by lia; easy|].
  destruct (Z.ltb_spec c 0x10000); [rewrite utf8_3 by lia; easy|]. rewrite utf8_4 by lia. easy.
Qed.

Theorem utf8_wide_units_refuted : forall W c h, (5 <= W)%Z -> valid_cp c -> (0x80 <= c)%Z -> (1 <= h)%Z ->
  let s := removelast (utf8 c) ++ [last (utf8 c) 0 + 256 * h]%Z in
  (exists u, In u s /\ 256 <= u)%Z /\
  exists m n, try_decode_utf8 false W s [] 0 = Done (m, n, true) /\ firstn n m = [c].
Proof.
  intros W c h HW Hc Hc2 Hh s. destruct (utf8_last c Hc Hc2) as [E1 E2].
  pose proof (utf8_units c Hc) as Hu. pose proof (Z.mod_pos_bound c 64 ltac:(lia)) as Hm.
  assert (Hu' : Forall (fun u => 0 <= u < 256)%Z (removelast (utf8 c))). { rewrite E1 in Hu. now apply Forall_app in Hu. }
  split.
  { exists (last (utf8 c) 0 + 256 * h)%Z. split; [apply in_or_app; right; now left|]. rewrite E2. lia. }
  assert (Es : map seen_as s = utf8 c).
  { unfold s. rewrite E2, map_app. rewrite E1 at 2. f_equal.
    - clear -Hu'. induction Hu'; cbn [map]; [easy|]. rewrite (seen_head x) by lia. congruence.
    - cbn [map]. f_equal. unfold seen_as. replace (_ <? 256)%Z with false by lia.
      rewrite Z.mul_comm, Z_mod_plus_full, Z.mod_small by lia.
      now replace ((0x80 <=? 0x80 + c mod 64) && (0x80 + c mod 64 <? 0xC0))%Z with true by lia. }
  rewrite utf8_wide_units_exact.
  2:{ unfold s. apply Forall_app. split; [eapply Forall_impl; [|exact Hu']; cbn; lia|]. constructor; [rewrite E2; lia|easy]. }
  rewrite Es. assert (HP : (2 ^ 5 <= 2 ^ W)%Z) by (apply Z.pow_le_mono_r; lia). change (2 ^ 5)%Z with 32%Z in HP.
  pose proof (utf8_len c) as Hl.
  destruct (utf8_decode_exact W (utf8 c) ltac:(lia) Hu ltac:(lia)) as (m & n & b & R & Hb & _ & Hv).
  assert (Ew : utf8 c = tr utf8 [c]) by (cbn; now rewrite app_nil_r).
  exists m, n. split; [|apply Hv; [now constructor|exact Ew]]. rewrite R. do 2 f_equal. apply Hb. exists [c]. split; [now constructor|exact Ew].
Qed.
(* 0xC3 0x1A9, which is not UTF-8, is decoded as U+00E9 *)
Example utf8_wide_units_refuted_ex :
  try_decode_utf8 false 64 [0xC3; 0x1A9]%Z [] 0 = Done ([0xE9]%Z, 1, true) /\ valid_cp 0xE9 /\
  removelast (utf8 0xE9) ++ [last (utf8 0xE9) 0 + 256 * 1]%Z = [0xC3; 0x1A9]%Z.
Proof. split; [reflexivity|]. split; [unfold valid_cp; lia|reflexivity]. Qed.
Print Assumptions utf8_wide_units_refuted.

(* C47: When a conversion stops with in_exhausted, what is left should be empty or a proper
   prefix of an encoded valid code point, and conversely. *)
Definition incomplete (v : conversion) (rest : list Z) : Prop :=
  rest = [] \/ exists c q, cp_ok v c /\ in_form v c = rest ++ q /\ q <> [].

Lemma incomplete_stuck v rest : incomplete v rest -> stuck (cp_ok v) (in_form v) rest.
Proof.
  intros [->|(c & q & Hc & E & Hq)]; [apply bad_nil; intros; apply of_src|].
  intros c' t Hc' E'. subst rest. rewrite <- app_assoc in E.
  destruct (of_pf v c c' [] (t ++ q) Hc Hc') as [_ H]; [now rewrite app_nil_r|]. symmetry in H. apply app_eq_nil in H. easy.
Qed.

Lemma incomplete_end v rest : Forall (in_unit v) rest -> (forall c, cp_ok v c -> units v (in_form v c)) ->
  incomplete v rest -> forall room, step_of v rest room = End.
Proof.
  intros Hu Hform Hi room. pose proof (incomplete_stuck v rest Hi) as Hst.
  destruct (of_step v rest Hu) as [(c & t & Hc & E & _)|[_ [H|[Hne H]]]]; [exfalso; exact (Hst c t Hc E)|apply H|].
  destruct Hi as [->|(c & q & Hc & E & Hq)]; [easy|]. exfalso.
  assert (Hu2 : units v (rest ++ q)) by (rewrite <- E; now apply Hform).
  pose proof (of_more v rest q (length (out_form v c)) Hu2) as H2. rewrite H, <- E in H2.
  pose proof (req_good (in_form v) (out_form v) (read_of v) (in_unit v) (step_of v) (narrow v) (of_good v) (of_read v)
    (in_form v c) c [] (Hform c Hc) Hc ltac:(now rewrite app_nil_r) (length (out_form v c))) as H3.
  rewrite H2 in H3 by easy. unfold put in H3. rewrite Nat.leb_refl in H3. discriminate.
Qed.

Lemma form_units v c : cp_ok v c -> units v (in_form v c).
Proof.
  intros [Hc _]. destruct v; cbn [in_form]; try (apply utf8_units; exact Hc);
    try (eapply Forall_impl; [|apply utf16_units; exact Hc]; cbn; lia);
    unfold valid_cp in Hc; repeat constructor; cbn; lia.
Qed.

Theorem unicode_exhausted_partial : forall v inp out cps rest,
  units v inp -> inp = tr (in_form v) cps ++ rest -> Forall (cp_ok v) cps ->
  length (tr (out_form v) cps) <= length out ->
  (incomplete v rest ->
     exists out', incr_of v inp out 0 0 = Some (out', length (tr (in_form v) cps), length (tr (out_form v) cps), true, false)) /\
  (stuck (cp_ok v) (in_form v) rest -> ~ incomplete v rest -> in_form v <> utf8 -> narrow v = false ->
     exists out', incr_of v inp out 0 0 = Some (out', length (tr (in_form v) cps), length (tr (out_form v) cps), false, true)).
Proof.
  intros v inp out cps rest Hu E V Hl.
  assert (Hur : units v rest) by (rewrite E in Hu; now apply Forall_app in Hu).
  assert (Hcall : stuck (cp_ok v) (in_form v) rest -> exists out' ex er,
    incr_of v inp out 0 0 = Some (out', length (tr (in_form v) cps), length (tr (out_form v) cps), ex, er) /\ stopped (step_of v) rest ex er).
  { intros B. rewrite incr_of_eq.
    destruct (incr_parse (cp_ok v) (in_form v) (out_form v) (step_of v) (in_unit v)) with (inp := inp) (out := out) (i := 0) (o := 0) (cps := cps) (rest := rest)
      as (k & ex & er & R & K1 & K2 & K3 & K4 & K5); intros; eauto using of_step, of_src, of_pf, of_dst; try lia.
    { now split. }
    assert (Ek : k = length cps).
    { destruct (Nat.eq_dec k (length cps)); [easy|]. destruct (K4 ltac:(lia)) as (_ & _ & H).
      pose proof (len_tr (out_form v) (S k) cps). lia. }
    rewrite R. subst k. rewrite !firstn_all. cbn [Nat.add]. eexists _, ex, er. split; [reflexivity|]. now apply K5. }
  split.
  - intros Hi. destruct (Hcall (incomplete_stuck v rest Hi)) as (out' & ex & er & R & (-> & _ & Hst)).
    specialize (Hst 0). rewrite (incomplete_end v rest Hur (form_units v) Hi) in Hst. destruct er; [discriminate|]. eauto.
  - intros B Hni Hform Hn. destruct (Hcall B) as (out' & ex & er & R & (-> & _ & Hst)).
    destruct er; [eauto|]. exfalso. apply Hni. specialize (Hst 0). rewrite of_read in Hst by easy.
    assert (Hemit : forall c n, emitter (narrow v) (out_form v) 0 c n <> End).
    { intros c n. unfold emitter, put. rewrite Hn. cbn [andb]. destruct (_ <=? _); discriminate. }
    destruct v; cbn [in_form] in Hform; try easy; cbn [read_of] in Hst; cbn [narrow] in Hn; subst;
      destruct rest as [|v1 t1]; try (now left); cbn [read16 read32] in Hst.
    1,2: destruct (valid_b v1); [exfalso; eapply Hemit; exact Hst|discriminate].
    all: destruct (Z.ltb_spec v1 0x10000); [|discriminate]; destruct (valid_b v1); [exfalso; eapply Hemit; exact Hst|];
      destruct ((0xD800 <=? v1) && (v1 <? 0xDC00))%Z eqn:E1; [|discriminate]; destruct t1 as [|v2 t1];
      [|destruct ((0xDC00 <=? v2) && (v2 <? 0xE000))%Z; [exfalso; eapply Hemit; exact Hst|discriminate]];
      right; exists (0x10000 + (v1 - 0xD800) * 1024)%Z, [0xDC00]%Z; 
      (split; [split; [unfold valid_cp; lia|easy]|]); (split; [|easy]); cbn [in_form app]; rewrite utf16_2 by lia;
      repeat apply (f_equal2 cons); try easy; Zdm.
Qed.
Example unicode_exhausted_partial_ex :
  decode_utf8_incr false [0x41; 0xE2; 0x82]%Z [0; 0]%Z 0 0 = Some ([0x41; 0]%Z, 1, 1, true, false) /\
  incomplete (Dec8 false) [0xE2; 0x82]%Z /\
  decode_utf16_incr false [0x41; 0xDC00]%Z [0; 0]%Z 0 0 = Some ([0x41; 0]%Z, 1, 1, false, true).
Proof.
  split; [reflexivity|]. split; [|reflexivity]. right. exists 0x20AC%Z, [0xAC]%Z.
  split; [split; [unfold valid_cp; lia|easy]|]. split; [reflexivity|easy].
Qed.
Print Assumptions unicode_exhausted_partial.

(* An initial byte of a sequence of three, and then any byte that does not continue it *)
Theorem unicode_exhausted_refuted : forall v inp out cps x, in_form v = utf8 ->
  (0 <= x < 256)%Z -> ~ (0x80 <= x < 0xC0)%Z ->
  inp = tr (in_form v) cps ++ [0xE2; x]%Z -> Forall (cp_ok v) cps ->
  length (tr (out_form v) cps) <= length out ->
  (exists out', incr_of v inp out 0 0 = Some (out', length (tr (in_form v) cps), length (tr (out_form v) cps), true, false)) /\
  ~ incomplete v [0xE2; x]%Z.
Proof.
  intros v inp out cps x Hf Hx Hx2 E V Hl. split.
  - assert (Hst0 : forall room, step_of v [0xE2; x]%Z room = End) by (destruct v; cbn [in_form] in Hf; try reflexivity;
      exfalso; apply (f_equal (fun f => f 0x10FFFF)%Z) in Hf; discriminate Hf).
    assert (Hr : units v [0xE2; x]%Z) by (destruct v; repeat constructor; cbn; lia).
    assert (Hu : units v inp).
    { rewrite E. apply Forall_app. split; [|easy]. clear -V. induction V; cbn; [constructor|]. apply Forall_app.
      split; [now apply form_units|easy]. }
    assert (B : stuck (cp_ok v) (in_form v) [0xE2; x]%Z).
    { apply (req_stop (in_form v) (out_form v) (read_of v) (in_unit v) (step_of v) (narrow v)) with (a := End); auto using of_good, of_read. }
    rewrite incr_of_eq.
    destruct (incr_parse (cp_ok v) (in_form v) (out_form v) (step_of v) (in_unit v)) with (inp := inp) (out := out) (i := 0) (o := 0) (cps := cps) (rest := [0xE2; x]%Z)
      as (k & ex & er & R & K1 & K2 & K3 & K4 & K5); intros; eauto using of_step, of_src, of_pf, of_dst; try lia.
    { now split. }
    assert (Ek : k = length cps).
    { destruct (Nat.eq_dec k (length cps)); [easy|]. destruct (K4 ltac:(lia)) as (_ & _ & H).
      pose proof (len_tr (out_form v) (S k) cps). lia. }
    rewrite R. destruct (K5 Ek) as (-> & _ & Hs). specialize (Hs 0). rewrite Hst0 in Hs. destruct er; [discriminate|].
    subst k. rewrite !firstn_all. eauto.
  - intros [H|(c & q & [Hc _] & H & _)]; [discriminate|]. rewrite Hf in H. unfold valid_cp in Hc. cbn [app] in H.
    assert (H1 : hd 0%Z (utf8 c) = 0xE2%Z) by now rewrite H. assert (H2 : hd 0%Z (tl (utf8 c)) = x) by now rewrite H.
    clear H. destruct (Z.ltb_spec c 0x80); [rewrite utf8_1 in H1, H2 by lia; cbn [hd tl] in *; lia|].
    destruct (Z.ltb_spec c 0x800); [rewrite utf8_2 in H1, H2 by lia; cbn [hd tl] in *; Zdm|].
    destruct (Z.ltb_spec c 0x10000); [rewrite utf8_3 in H1, H2 by lia|rewrite utf8_4 in H1, H2 by lia]; cbn [hd tl] in *; Zdm.
Qed.
Example unicode_exhausted_refuted_ex :
  decode_utf8_incr false [0x41; 0xE2; 0x41]%Z [0; 0]%Z 0 0 = Some ([0x41; 0]%Z, 1, 1, true, false).
Proof. reflexivity. Qed.
Print Assumptions unicode_exhausted_refuted.
