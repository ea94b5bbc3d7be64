(* Theorems about memory streams. *)
From Coq Require Import ZArith Bool List Lia ZifyBool.
From Verif Require Import CInt IntModel BufferModel MemStreamModel MemStreamSpec MemStreamProofs MemStreamProofs2 ArrLib.
Import ListNotations.
Open Scope Z_scope.

(* C128: output to a fixed size chunk of memory.  The memory is that of the contents
   followed by what was in the original memory. *)
Theorem memory_output_exact {C} (null : C) (memory : list C) size ops :
  0 <= size <= Z.of_nat (length memory) -> Z.of_nat (length memory) < 2 ^ 63 -> Forall oop_ok ops ->
  exists s0 s1,
    let (results, f) := f_run null (length memory) (firstn (Z.to_nat size) memory, 0%nat) ops in
    o_reset memory size = Done (Some s0) /\
    o_view s0 = firstn (Z.to_nat size) memory /\
    o_run null s0 ops = Some (results, s1) /\
    o_view s1 = fst f /\
    o_mem s1 = fst f ++ skipn (length (fst f)) memory.
Proof.
  intros Hs Hm Ho. set (c := firstn (Z.to_nat size) memory).
  assert (Lc : length c = Z.to_nat size) by (unfold c; rewrite firstn_length; lia).
  assert (R : orep memory (Obuf memory 0 size) (c, 0%nat)).
  { unfold orep, o_get_size. cbn [o_mem o_pptr o_size_x]. rewrite Lc. repeat split; try lia.
    unfold c. now rewrite firstn_skipn. }
  destruct (o_run_ok null memory Hm ops _ _ R Ho) as (s1 & E1 & R1).
  exists (Obuf memory 0 size), s1. destruct (f_run null (length memory) (c, 0%nat) ops) as (rs, f). cbn [fst snd] in *.
  split.
  { unfold o_reset. rewrite capacity_limit by lia. replace (size <=? Z.of_nat (length memory)) with true by lia.
    replace (2 ^ 63 <=? Z.of_nat (length memory)) with false by lia.
    replace (Z.of_nat (length memory) <? size) with false by lia. reflexivity. }
  split; [exact (orep_view _ _ _ R)|]. split; [exact E1|]. split; [exact (orep_view _ _ _ R1)|].
  destruct f as (c1, p1). exact (proj1 R1).
Qed.

Theorem memory_output_too_large {C} (memory : list C) size :
  0 <= size <= Z.of_nat (length memory) -> 2 ^ 63 <= Z.of_nat (length memory) < 2 ^ 64 ->
  o_reset memory size = Throw None.
Proof.
  intros Hs Hm. unfold o_reset. rewrite capacity_limit by lia. replace (size <=? Z.of_nat (length memory)) with true by lia.
  now replace (2 ^ 63 <=? Z.of_nat (length memory)) with true by lia.
Qed.

Example memory_output_case :
  let ops := [Write [11; 12; 13]; Oseekoff 0 End true; Oseekoff 3 Cur true; Write [14]; Oseekpos 1 true true;
              Write [15]; Oseekoff (-3) Beg true; Oseekoff 9 Beg true; Oseekpos 8 true true; Write [16; 17]] in
  let memory := [1; 2; 3; 4; 5; 6; 7; 8; 9] in
  0 <= 1 <= Z.of_nat (length memory) /\ Z.of_nat (length memory) < 2 ^ 63 /\ Forall (@oop_ok Z) ops /\
  f_run 0 9 (firstn 1 memory, 0%nat) ops =
    ([3; 3; 6; 1; 1; 1; -1; 9; 8; 1], ([11; 15; 13; 0; 0; 0; 14; 0; 16], 9%nat)).
Proof.
  split; [cbn; lia|]. split; [reflexivity|]. split; [|vm_compute; reflexivity].
  repeat constructor; unfold oop_ok, off_ok; lia.
Qed.

Lemma too_large_case : exists memory : list Z, 2 ^ 63 <= Z.of_nat (length memory) < 2 ^ 64.
Proof. exists (repeat 0 (Z.to_nat (2 ^ 63))). rewrite repeat_length, Z2Nat.id by lia. lia. Qed.

(* C129: input from a fixed size chunk of memory *)
Theorem memory_input_exact {C} (memory : list C) ops :
  Z.of_nat (length memory) < 2 ^ 63 -> Forall iop_ok ops ->
  exists s0 s1,
    let (results, f) := g_run ([], memory) ops in
    i_reset memory = Done (Some s0) /\
    i_run s0 ops = Some (results, s1) /\
    i_view s1 = memory /\ rev (fst f) ++ snd f = memory /\ i_gptr s1 = Z.of_nat (length (fst f)).
Proof.
  intros Hm Ho.
  assert (R : irep memory (Ibuf memory 0) ([], memory)) by (repeat split).
  destruct (i_run_ok memory Hm ops _ _ R Ho) as (s1 & E1 & (R1 & R2 & R3)).
  exists (Ibuf memory 0), s1. destruct (g_run ([], memory) ops) as (rs, f). cbn [fst snd] in *.
  split.
  { unfold i_reset. rewrite capacity_limit by lia. now replace (2 ^ 63 <=? Z.of_nat (length memory)) with false by lia. }
  split; [exact E1|]. split; [exact R1|]. split; [exact R2|exact R3].
Qed.

Theorem memory_input_too_large {C} (memory : list C) :
  2 ^ 63 <= Z.of_nat (length memory) < 2 ^ 64 -> i_reset memory = Throw None.
Proof.
  intros Hm. unfold i_reset. rewrite capacity_limit by lia. now replace (2 ^ 63 <=? Z.of_nat (length memory)) with true by lia.
Qed.

Example memory_input_case :
  let ops := [Read 2; Unget; Iseekoff 1 Cur true; Read 9; Read 1; Iseekoff (-1) End true; Read 1; Iseekpos 9 true true;
              Iseekoff (-1) Beg true; Iseekpos 0 true true; Unget; Iseekpos 0 true false] in
  Z.of_nat (length [1; 2; 3; 4; 5]) < 2 ^ 63 /\ Forall iop_ok ops /\
  fst (g_run ([], [1; 2; 3; 4; 5]) ops) =
    [Chars [1; 2]; Char (Some 2); Pos 2; Chars [3; 4; 5]; Chars []; Pos 4; Chars [5]; Pos (-1);
     Pos (-1); Pos 0; Char None; Pos (-1)].
Proof.
  split; [reflexivity|]. split; [|vm_compute; reflexivity].
  repeat constructor; unfold iop_ok, off_ok; lia.
Qed.

(* C130: output to memory that grows from seed memory *)
Theorem seed_memory_partial {C} (can_alloc : Z -> bool) (is_eof : C -> bool) seed ops :
  Z.of_nat (length seed) < 2 ^ 64 -> Forall sop_ok ops ->
  Forall (fun op => match op with Sputc c => is_eof c = false | _ => True end) ops ->
  exists threw s, s_run can_alloc is_eof (s_make seed) ops = Some (threw, s) /\ length threw = length ops /\
    s_view s = map Some (contents [] ops threw) /\ s_destroy s = Some [] /\
    (forall n, nth_error threw n = Some true ->
      exists op, nth_error ops n = Some op /\
        let used := Z.of_nat (length (contents [] (firstn n ops) (firstn n threw))) in
        let wanted := match op with Reserve k => k | _ => Z.of_nat (length (added op)) end in
        2 ^ 64 <= used + wanted \/ exists k, used + wanted <= k < 2 ^ 64 /\ can_alloc k = false).
Proof.
  intros Hs Ho He.
  assert (R : srep (s_make seed) []).
  { unfold srep, s_capacity. cbn. repeat split; try assumption; [now eexists|discriminate]. }
  assert (G : forall ops s acc, srep s acc -> Forall sop_ok ops -> Forall (no_eof is_eof) ops ->
    exists threw s', s_run can_alloc is_eof s ops = Some (threw, s') /\ length threw = length ops /\
      srep s' (contents acc ops threw) /\
      forall n, nth_error threw n = Some true -> exists op, nth_error ops n = Some op /\
        exhausted can_alloc (Z.of_nat (length (contents acc (firstn n ops) (firstn n threw))) + room op)).
  { clear. induction ops as [|op ops IH]; intros s acc R H1 H2.
    - exists [], s. split; [reflexivity|]. split; [reflexivity|]. split; [exact R|]. intros [|n] Hn; discriminate.
    - inversion H1; inversion H2; subst. cbn [s_run].
      destruct (s_step_ok can_alloc is_eof s acc op R) as [(s1 & E & R1)|(E & Hc & X)]; try assumption; rewrite E.
      + destruct (IH s1 _ R1) as (threw & s2 & E2 & L2 & R2 & T2); try assumption. rewrite E2. cbn [obind].
        exists (false :: threw), s2. split; [reflexivity|]. split; [cbn; lia|]. split; [destruct op; exact R2|].
        intros [|n] Hn; [discriminate|]. destruct (T2 n Hn) as (op' & E' & X'). exists op'. split; [exact E'|].
        cbn [firstn]. destruct op; exact X'.
      + destruct (IH s _ R) as (threw & s2 & E2 & L2 & R2 & T2); try assumption. rewrite E2. cbn [obind].
        exists (true :: threw), s2. split; [reflexivity|]. split; [cbn; lia|].
        split; [destruct op; try exact R2; congruence|].
        intros [|n] Hn; [exists op; split; [reflexivity|exact X]|].
        destruct (T2 n Hn) as (op' & E' & X'). exists op'. split; [exact E'|].
        cbn [firstn]. destruct op; try exact X'. congruence. }
  destruct (G ops _ _ R Ho He) as (threw & s & E & L & Rs & T). exists threw, s.
  split; [exact E|]. split; [exact L|]. split; [exact (srep_view _ _ Rs)|]. split; [exact (srep_destroy _ _ Rs)|exact T].
Qed.

(* C130: memory is retained, also when the contents are cleared: an operation that throws needs more room than the seed memory has, and more than any
   earlier operation that did not throw *)
Theorem seed_memory_retained {C} (can_alloc : Z -> bool) (is_eof : C -> bool) seed ops threw s :
  Z.of_nat (length seed) < 2 ^ 64 -> Forall sop_ok ops ->
  Forall (fun op => match op with Sputc c => is_eof c = false | _ => True end) ops ->
  s_run can_alloc is_eof (s_make seed) ops = Some (threw, s) ->
  let needed n op :=
    Z.of_nat (length (contents [] (firstn n ops) (firstn n threw))) + match op with Reserve k => k | _ => Z.of_nat (length (added op)) end in
  forall n op, nth_error ops n = Some op -> nth_error threw n = Some true ->
    Z.of_nat (length seed) < needed n op /\
    forall m op', (m < n)%nat -> nth_error ops m = Some op' -> nth_error threw m = Some false -> needed m op' < needed n op.
Proof.
  intros Hs Ho He Hr needed.
  assert (R : srep (s_make seed) []).
  { unfold srep, s_capacity. cbn. repeat split; try assumption; [now eexists|discriminate]. }
  assert (Cap : Z.of_nat (length seed) <= s_capacity (s_make seed)) by (unfold s_capacity, s_make; cbn [s_mem]; lia).
  assert (G : forall ops s acc threw s', srep s acc -> Forall sop_ok ops -> Forall (no_eof is_eof) ops -> s_run can_alloc is_eof s ops = Some (threw, s') ->
    let needed n op := Z.of_nat (length (contents acc (firstn n ops) (firstn n threw))) + room op in
    forall n op, nth_error ops n = Some op -> nth_error threw n = Some true ->
      s_capacity s < needed n op /\
      forall m op', (m < n)%nat -> nth_error ops m = Some op' -> nth_error threw m = Some false -> needed m op' < needed n op).
  { clear. induction ops as [|op ops IH]; intros s acc threw s' R H1 H2 E needed n op0 Hn Ht; [destruct n; discriminate|].
    inversion H1; inversion H2; subst. cbn [s_run] in E.
    pose proof (s_step_cap can_alloc is_eof s acc op R ltac:(assumption) ltac:(assumption)) as K.
    destruct (s_step_ok can_alloc is_eof s acc op R) as [(s1 & E1 & R1)|(E1 & Hc & _)]; try assumption; rewrite E1 in *.
    - destruct (s_run can_alloc is_eof s1 ops) as [[t s2]|] eqn:E2; [|discriminate]. cbn [obind] in E. injection E as <- <-.
      destruct n as [|n]; [discriminate|]. cbn [nth_error] in Hn, Ht.
      destruct (IH s1 _ t s2 R1 ltac:(assumption) ltac:(assumption) E2 n op0 Hn Ht) as [A B].
      assert (N : forall k o, needed (S k) o = Z.of_nat (length (contents (match op with Clear => [] | _ => acc ++ added op end) (firstn k ops) (firstn k t))) + room o).
      { intros k o. unfold needed. cbn [firstn]. destruct op; reflexivity. }
      rewrite N. split; [lia|]. intros [|m] op' Hm Ho Hf.
      + injection Ho as <-. unfold needed at 1. cbn [firstn contents]. lia.
      + rewrite N. apply B; [lia|exact Ho|exact Hf].
    - destruct (s_run can_alloc is_eof s ops) as [[t s2]|] eqn:E2; [|discriminate]. cbn [obind] in E. injection E as <- <-.
      destruct n as [|n].
      + injection Hn as <-. unfold needed. cbn [firstn contents]. split; [exact K|]. intros m op' Hm. lia.
      + cbn [nth_error] in Hn, Ht. destruct (IH s acc t s2 R ltac:(assumption) ltac:(assumption) E2 n op0 Hn Ht) as [A B].
        assert (N : forall k o, needed (S k) o = Z.of_nat (length (contents acc (firstn k ops) (firstn k t))) + room o).
        { intros k o. unfold needed. cbn [firstn]. destruct op; try reflexivity. congruence. }
        rewrite N. split; [exact A|]. intros [|m] op' Hm Ho Hf; [discriminate|]. rewrite N. apply B; [lia|exact Ho|exact Hf]. }
  intros n op Hn Ht. destruct (G ops _ _ _ _ R Ho He Hr n op Hn Ht) as [A B]. split; [|exact B]. unfold needed. unfold room in A. lia.
Qed.

(* After 5 characters and a clear, 5 characters need no memory, but 6 do *)
Example seed_memory_retained_case :
  let ops := [Append [1; 2; 3; 4; 5]; Clear; Append [6; 7; 8; 9; 10]; Sputc 11] in
  s_run (fun _ => false) (fun _ => false) (s_make [None; None; None; None; None]) ops =
    Some ([false; false; false; true], Sbuf [Some 6; Some 7; Some 8; Some 9; Some 10] 5 None [] 0).
Proof. vm_compute. reflexivity. Qed.

(* The full statement: without the assumption about characters whose value is that of
   traits_type::eof() *)
Theorem seed_memory_refuted :
  ~ forall C (can_alloc : Z -> bool) (is_eof : C -> bool) seed ops,
    Z.of_nat (length seed) < 2 ^ 64 -> Forall sop_ok ops ->
    exists threw s, s_run can_alloc is_eof (s_make seed) ops = Some (threw, s) /\
      s_view s = map Some (contents [] ops threw).
Proof.
  intros H.
  destruct (H Z (fun _ => true) (fun c => c =? 2 ^ 32 - 1) [] [Sputc (2 ^ 32 - 1)]) as (threw & s & E & V).
  - reflexivity.
  - repeat constructor.
  - vm_compute in E. inversion E; subst. vm_compute in V. discriminate.
Qed.

(* overflow() as called with traits_type::eof() appends an indeterminate character *)
Example overflow_eof_case :
  match overflow (fun _ => true) (s_make [Some 7]) None with
  | Done s => s_view s = [Some 7]
  | _ => False
  end /\
  match overflow (fun _ => true) (s_make (@nil (option Z))) None with
  | Done s => s_view s = [None]
  | _ => False
  end.
Proof. split; vm_compute; reflexivity. Qed.

Example seed_memory_case :
  let ops := [Sputc 1; Sputn [2; 3; 4]; Append [5]; AppendFill 2 6; Reserve 9; Reserve (2 ^ 64 - 1); Sputc 7; Clear; Append [8; 9]] in
  Z.of_nat (length [Some 0; Some 0]) < 2 ^ 64 /\ Forall (@sop_ok Z) ops /\
  match s_run (fun n => n <? 1000) (fun c => c =? 2 ^ 32 - 1) (s_make [Some 0; Some 0]) ops with
  | Some (threw, s) => threw = [false; false; false; false; false; true; false; false; false] /\ s_view s = [Some 8; Some 9]
  | None => False
  end.
Proof.
  split; [reflexivity|]. split; [|vm_compute; split; reflexivity].
  repeat constructor; unfold sop_ok; cbn [length]; lia.
Qed.

Print Assumptions memory_output_exact.
Print Assumptions memory_output_too_large.
Print Assumptions memory_input_exact.
Print Assumptions memory_input_too_large.
Print Assumptions seed_memory_partial.
Print Assumptions seed_memory_refuted.
Print Assumptions seed_memory_retained.
