(* Lemmas about memory streams. *)
From Coq Require Import ZArith Bool List Lia ZifyBool.
From Verif Require Import CInt IntModel IntProofs BufferModel BufferProofs MemStreamModel MemStreamSpec ArrLib.
Import ListNotations.
Open Scope Z_scope.

Lemma size_ok : ity_ok t_size. Proof. cbv. discriminate. Qed.
Lemma off_ity_ok : ity_ok t_off. Proof. cbv. discriminate. Qed.
Lemma range_size x : in_range t_size x <-> 0 <= x < 2 ^ 64.
Proof. unfold in_range. change (imin t_size) with 0. change (imax t_size) with (2 ^ 64 - 1). lia. Qed.
Lemma range_off x : in_range t_off x <-> - 2 ^ 63 <= x < 2 ^ 63.
Proof. unfold in_range. change (imin t_off) with (- 2 ^ 63). change (imax t_off) with (2 ^ 63 - 1). lia. Qed.
Lemma rangeb_size x : in_rangeb t_size x = (0 <=? x) && (x <? 2 ^ 64).
Proof. unfold in_rangeb. change (imin t_size) with 0. change (imax t_size) with (2 ^ 64 - 1). lia. Qed.

Lemma cast_off x : 0 <= x < 2 ^ 63 -> can_int_cast t_off t_size x && negb (wrap t_off x =? -1) = true /\ wrap t_off x = x.
Proof.
  intros H. rewrite (wrap_id t_off) by (apply off_ity_ok || (apply range_off; lia)).
  rewrite can_int_cast_spec by (apply off_ity_ok || apply size_ok || (apply range_size; lia)).
  assert (R : in_rangeb t_off x = true) by (apply in_rangeb_spec, range_off; lia). rewrite R. lia.
Qed.

Lemma capacity_limit x : 0 <= x < 2 ^ 64 -> int_greater t_size t_off x (imax t_off) = (2 ^ 63 <=? x).
Proof.
  intros H. unfold int_greater. rewrite int_less_spec.
  - change (imax t_off) with (2 ^ 63 - 1). lia.
  - apply off_ity_ok.
  - apply size_ok.
  - apply range_off. change (imax t_off) with (2 ^ 63 - 1). lia.
  - apply range_size, H.
Qed.

Lemma int_max_pos : 0 < int_max. Proof. reflexivity. Qed.
Opaque int_max.

Lemma pbump_while_ok again cap d : (d = 1 \/ d = -1) -> (forall n, again n = true -> int_max <= n) ->
  forall fuel n pos, 0 <= n -> (Z.to_nat (n / int_max) <= fuel)%nat -> 0 <= pos <= cap -> 0 <= pos + d * n <= cap ->
  exists n', pbump_while fuel again cap (d * int_max) pos n = Some (pos + d * (n - n'), n') /\ 0 <= n' <= n.
Proof.
  intros Hd Ha. pose proof int_max_pos as P.
  induction fuel as [|fuel IH]; intros n pos Hn Hf Hp He; cbn [pbump_while].
  - destruct (again n) eqn:E.
    + apply Ha in E. pose proof (Z.div_le_lower_bound n int_max 1 P ltac:(lia)). lia.
    + exists n. split; [|lia]. f_equal. f_equal. lia.
  - destruct (again n) eqn:E.
    + apply Ha in E. unfold pbump.
      assert (B : 0 <= pos + d * int_max <= cap) by (destruct Hd as [-> | ->]; lia).
      replace ((0 <=? pos + d * int_max) && (pos + d * int_max <=? cap)) with true by lia. cbn [obind].
      assert (Q : n / int_max = (n - int_max) / int_max + 1).
      { replace n with ((n - int_max) + 1 * int_max) at 1 by lia. rewrite Z.div_add by lia. lia. }
      pose proof (Z.div_pos (n - int_max) int_max ltac:(lia) P).
      destruct (IH (n - int_max) (pos + d * int_max)) as (n' & E2 & B2); try lia.
      exists n'. split; [|lia]. rewrite E2. f_equal. f_equal. lia.
    + exists n. split; [|lia]. f_equal. f_equal. lia.
Qed.

Lemma pbump_ok cap pos n : 0 <= pos + n <= cap -> pbump cap pos n = Some (pos + n).
Proof. intros H. unfold pbump. now replace ((0 <=? pos + n) && (pos + n <=? cap)) with true by lia. Qed.

Section M.
  Context {C : Type} (null : C).

  Lemma set_pos_ok (s : obuf C) pos : 0 <= pos <= capacity s -> 0 <= o_pptr s <= capacity s ->
    o_set_pos s pos = Some (Obuf (o_mem s) pos (o_size_x s)).
  Proof.
    intros Hp Ho. unfold o_set_pos. destruct (Z.leb_spec (o_pptr s) pos).
    - destruct (pbump_while_ok (fun n => int_max <=? n) (capacity s) 1 ltac:(lia) ltac:(intros n; lia)
        (Z.to_nat ((pos - o_pptr s) / int_max)) (pos - o_pptr s) (o_pptr s)) as (n & E & B); try lia.
      rewrite Z.mul_1_l in E. rewrite E. cbn [obind]. rewrite pbump_ok by lia. cbn [obind]. f_equal. f_equal. lia.
    - destruct (pbump_while_ok (fun n => int_max <=? n) (capacity s) (-1) ltac:(lia) ltac:(intros n; lia)
        (Z.to_nat ((o_pptr s - pos) / int_max)) (o_pptr s - pos) (o_pptr s)) as (n & E & B); try lia.
      replace (-1 * int_max) with (- int_max) in E by lia. rewrite E. cbn [obind]. rewrite pbump_ok by lia.
      cbn [obind]. f_equal. f_equal. lia.
  Qed.

  (* ---- output ---- *)

  Definition orep (memory : list C) (s : obuf C) (f : file C) : Prop :=
    let (c, p) := f in
    o_mem s = c ++ skipn (length c) memory /\ (length c <= length memory)%nat /\
    o_pptr s = Z.of_nat p /\ (p <= length c)%nat /\ o_get_size s = Z.of_nat (length c) /\ 0 <= o_size_x s.

  Lemma orep_capacity memory s f : orep memory s f -> capacity s = Z.of_nat (length memory).
  Proof.
    destruct f as (c, p). intros (E & H & _). unfold capacity. rewrite E, app_length, skipn_length. lia.
  Qed.

  Lemma skipn_skipn' {A} (l : list A) n : forall m, skipn n (skipn m l) = skipn (m + n) l.
  Proof.
    induction l as [|x l IH]; intros m; [now rewrite !skipn_nil|]. destruct m; [reflexivity|]. cbn [skipn Nat.add]. apply IH.
  Qed.

  Lemma sputc_ok memory s c p x : orep memory s (c, p) -> (p < length memory)%nat ->
    exists s', o_sputc s x = Some (true, s') /\ orep memory s' (firstn p c ++ x :: skipn (S p) c, S p).
  Proof.
    intros R Hp. pose proof (orep_capacity _ _ _ R) as Hc. destruct R as (E & L & P & Lp & G & Z0).
    unfold o_sputc. rewrite Hc, P. replace (Z.of_nat p <? Z.of_nat (length memory)) with true by lia.
    rewrite Nat2Z.id. rewrite set_nth_some by (rewrite E, app_length, skipn_length; lia). cbn [obind].
    eexists. split; [reflexivity|]. unfold orep. cbn [o_mem o_pptr o_size_x]. unfold o_get_size in *. cbn [o_size_x o_pptr].
    assert (Lf : length (firstn p c) = p) by (rewrite firstn_length; lia).
    rewrite !app_length. cbn [length]. rewrite skipn_length, Lf.
    repeat split; try lia.
    - rewrite E, <- app_assoc, firstn_app. replace (p - length c)%nat with 0%nat by lia.
      cbn [firstn]. rewrite app_nil_r. f_equal. cbn [app]. f_equal.
      rewrite skipn_app, skipn_skipn'. f_equal. f_equal. lia.
  Qed.

  Lemma sputn_ok memory : forall str s c p, orep memory s (c, p) ->
    exists s', o_sputn s str = Some (fst (f_write (length memory) (c, p) str), s') /\
      orep memory s' (snd (f_write (length memory) (c, p) str)).
  Proof.
    induction str as [|x str IH]; intros s c p R.
    - cbn [o_sputn f_write length Nat.min fst snd]. exists s. split; [reflexivity|].
      cbn [firstn app]. rewrite Nat.add_0_r, firstn_skipn. exact R.
    - cbn [o_sputn]. destruct (Nat.lt_ge_cases p (length memory)) as [Hp|Hp].
      + destruct (sputc_ok memory s c p x R Hp) as (s1 & E1 & R1). rewrite E1. cbn [obind].
        destruct (IH s1 _ _ R1) as (s2 & E2 & R2). rewrite E2. cbn [obind]. exists s2.
        cbn [f_write fst snd length] in *.
        replace (Nat.min (S (length str)) (length memory - p)) with (S (Nat.min (length str) (length memory - S p))) by lia.
        set (n := Nat.min (length str) (length memory - S p)) in *.
        split; [f_equal; f_equal; lia|].
        assert (Lf : length (firstn p c) = p) by (rewrite firstn_length; destruct R as (_ & _ & _ & ? & _); lia).
        replace (p + S n)%nat with (S p + n)%nat by lia.
        assert (F : firstn (S p) (firstn p c ++ x :: skipn (S p) c) = firstn p c ++ [x]).
        { rewrite firstn_app, Lf. replace (S p - p)%nat with 1%nat by lia.
          now rewrite firstn_firstn, Nat.min_r by lia. }
        assert (K : skipn (S p + n) (firstn p c ++ x :: skipn (S p) c) = skipn (S p + n) c).
        { rewrite skipn_app, Lf. replace (S p + n - p)%nat with (S n) by lia.
          rewrite (skipn_all2 (firstn p c)) by (rewrite Lf; lia). rewrite <- (skipn_skipn' c n (S p)). reflexivity. }
        rewrite F, K in R2. rewrite <- app_assoc in R2. exact R2.
      + pose proof (orep_capacity _ _ _ R) as Hc. pose proof R as (E & L & P & Lp & G & Z0).
        unfold o_sputc. rewrite Hc, P. replace (Z.of_nat p <? Z.of_nat (length memory)) with false by lia. cbn [obind].
        exists s. cbn [f_write fst snd]. replace (length memory - p)%nat with 0%nat by lia. rewrite Nat.min_0_r.
        split; [reflexivity|]. cbn [firstn app]. rewrite Nat.add_0_r, firstn_skipn. exact R.
  Qed.

  Lemma seek_ok memory s f pos : orep memory s f -> Z.of_nat (length memory) < 2 ^ 63 -> 0 <= pos ->
    exists s', o_seek null s pos = Some (fst (f_seek null (length memory) f pos), s') /\
      orep memory s' (snd (f_seek null (length memory) f pos)).
  Proof.
    intros R Hm Hpos. pose proof (orep_capacity _ _ _ R) as Hc. destruct f as (c, p).
    pose proof R as (E & L & P & Lp & G & Z0). unfold o_seek. rewrite Hc. cbn [f_seek].
    replace (0 <=? pos) with true by lia. cbn [andb].
    destruct (Z.leb_spec pos (Z.of_nat (length memory))); [|exists s; split; [reflexivity|exact R]].
    cbn [fst snd]. unfold update_and_get_size_x.
    set (us := if o_size_x s <? o_pptr s then (o_pptr s, Obuf (o_mem s) (o_pptr s) (o_pptr s)) else (o_size_x s, s)).
    assert (U : us = (Z.of_nat (length c), Obuf (o_mem s) (o_pptr s) (Z.of_nat (length c)))).
    { unfold us, o_get_size in *. destruct s as [m q x]. cbn [o_mem o_pptr o_size_x] in *.
      destruct (Z.ltb_spec x q); f_equal; try f_equal; lia. }
    rewrite U. clear us U. cbn [o_mem o_pptr o_size_x].
    destruct (cast_off pos ltac:(lia)) as (K1 & K2).
    destruct (Z.leb_spec (Z.of_nat (length c)) pos).
    - assert (Lm : length (o_mem s) = length memory) by (rewrite E, app_length, skipn_length; lia).
      unfold fill_n. rewrite Lm.
      match goal with |- context [if ?b then _ else _] => replace b with true by lia end. cbn [obind].
      rewrite set_pos_ok; cbn [o_mem o_pptr o_size_x capacity].
      + cbn [obind]. rewrite K1, K2. eexists. split; [reflexivity|]. unfold orep, o_get_size. cbn [o_mem o_pptr o_size_x].
        rewrite app_length, repeat_length. repeat split; try lia.
        rewrite E, Nat2Z.id. rewrite firstn_app, firstn_all, Nat.sub_diag. cbn [firstn]. rewrite app_nil_r.
        rewrite <- app_assoc. f_equal. f_equal; [f_equal; lia|].
        replace (Z.of_nat (length c) + (pos - Z.of_nat (length c))) with pos by lia.
        rewrite skipn_app, skipn_all2 by lia. cbn [app]. rewrite skipn_skipn'. f_equal; lia.
      + unfold capacity. cbn [o_mem]. rewrite !app_length, firstn_length, repeat_length, skipn_length, Lm. lia.
      + unfold capacity. cbn [o_mem]. rewrite !app_length, firstn_length, repeat_length, skipn_length, Lm. lia.
    - cbn [obind]. rewrite set_pos_ok; unfold capacity; cbn [o_mem o_pptr o_size_x].
      + cbn [obind]. rewrite K1, K2. eexists. split; [reflexivity|]. unfold orep, o_get_size. cbn [o_mem o_pptr o_size_x].
        replace (Z.to_nat pos - length c)%nat with 0%nat by lia. cbn [repeat]. rewrite app_nil_r. repeat split; try lia. exact E.
      + rewrite E, app_length, skipn_length. lia.
      + rewrite E, app_length, skipn_length. lia.
  Qed.

  Lemma f_seek_out limit f pos : pos < 0 \/ Z.of_nat limit < pos -> f_seek null limit f pos = (-1, f).
  Proof.
    intros H. destruct f as (c, p). cbn [f_seek].
    now replace ((0 <=? pos) && (pos <=? Z.of_nat limit)) with false by lia.
  Qed.

  Lemma o_step_ok memory s f op : orep memory s f -> Z.of_nat (length memory) < 2 ^ 63 -> oop_ok op ->
    exists s', o_step null s op = Some (fst (f_step null (length memory) f op), s') /\
      orep memory s' (snd (f_step null (length memory) f op)).
  Proof.
    intros R Hm Hop. destruct op as [str|off dir which|pos init which].
    - destruct f as (c, p). exact (sputn_ok memory str s c p R).
    - cbn [o_step f_step]. unfold o_seekoff. destruct which; [|exists s; now split].
      set (base := match dir with Beg => 0 | Cur => o_pptr s | End => o_get_size s end).
      set (base' := match dir with Beg => 0 | Cur => Z.of_nat (snd f) | End => Z.of_nat (length (fst f)) end).
      assert (B : base = base' /\ 0 <= base <= Z.of_nat (length memory)).
      { unfold base, base'. destruct f as (c, p). destruct R as (E & L & P & Lp & G & Z0). cbn [fst snd].
        destruct dir; rewrite ?P, ?G; lia. }
      destruct B as (<- & B). cbn in Hop. unfold off_ok in Hop.
      rewrite try_int_add_spec by (apply size_ok || apply off_ity_ok || (apply range_size; lia) || (apply range_off; lia)).
      unfold add_res. rewrite rangeb_size.
      destruct ((0 <=? base + off) && (base + off <? 2 ^ 64)) eqn:E; cbn [obind].
      + apply seek_ok; [exact R|exact Hm|lia].
      + rewrite f_seek_out by lia. exists s. now split.
    - cbn [o_step f_step]. unfold o_seekpos. destruct (init && which); [|exists s; now split].
      cbn in Hop. unfold off_ok in Hop.
      rewrite try_int_cast_spec by (apply size_ok || apply off_ity_ok || (apply range_off; lia)).
      rewrite rangeb_size. destruct ((0 <=? pos) && (pos <? 2 ^ 64)) eqn:E.
      + apply seek_ok; [exact R|exact Hm|lia].
      + rewrite f_seek_out by lia. exists s. now split.
  Qed.

  Lemma o_run_ok memory : Z.of_nat (length memory) < 2 ^ 63 -> forall ops s f, orep memory s f -> Forall oop_ok ops ->
    exists s', o_run null s ops = Some (fst (f_run null (length memory) f ops), s') /\
      orep memory s' (snd (f_run null (length memory) f ops)).
  Proof.
    intros Hm. induction ops as [|op ops IH]; intros s f R H; [exists s; now split|].
    inversion H; subst. destruct (o_step_ok memory s f op R Hm) as (s1 & E1 & R1); [assumption|].
    cbn [o_run f_run]. rewrite E1. cbn [obind]. destruct (f_step null (length memory) f op) as (r, f1). cbn [fst snd] in *.
    destruct (IH s1 f1 R1) as (s2 & E2 & R2); [assumption|]. rewrite E2. cbn [obind].
    destruct (f_run null (length memory) f1 ops) as (rs, f2). exists s2. now split.
  Qed.

  Lemma orep_view memory s f : orep memory s f -> o_view s = fst f.
  Proof.
    destruct f as (c, p). intros (E & L & P & Lp & G & Z0). unfold o_view. rewrite G, E, Nat2Z.id.
    rewrite firstn_app, firstn_all, Nat.sub_diag. cbn [firstn]. now rewrite app_nil_r.
  Qed.

  (* ---- input ---- *)

  Definition irep (memory : list C) (s : ibuf C) (f : ifile C) : Prop :=
    i_mem s = memory /\ rev (fst f) ++ snd f = memory /\ i_gptr s = Z.of_nat (length (fst f)).

  Lemma irep_length memory s f : irep memory s f -> i_get_size s = Z.of_nat (length (fst f) + length (snd f)).
  Proof. intros (E & M & _). unfold i_get_size. rewrite E, <- M, app_length, rev_length. lia. Qed.

  Lemma sgetn_ok memory : forall n s b a, irep memory s (b, a) ->
    exists s', i_sgetn s n = Some (firstn n a, s') /\ irep memory s' (rev (firstn n a) ++ b, skipn n a).
  Proof.
    induction n as [|n IH]; intros s b a R; [exists s; now split|].
    pose proof (irep_length _ _ _ R) as L. destruct R as (E & M & G). cbn [fst snd] in *.
    cbn [i_sgetn]. unfold i_sbumpc. rewrite L, G. destruct a as [|x a]; cbn [length firstn skipn rev app].
    - replace (Z.of_nat (length b) <? Z.of_nat (length b + 0)) with false by lia. cbn [obind]. exists s. split; [reflexivity|].
      now repeat split.
    - replace (Z.of_nat (length b) <? Z.of_nat (length b + S (length a))) with true by lia.
      rewrite Nat2Z.id, E, <- M. rewrite nth_error_app2 by (rewrite rev_length; lia).
      rewrite rev_length, Nat.sub_diag. cbn [nth_error obind].
      destruct (IH (Ibuf (rev b ++ x :: a) (Z.of_nat (length b) + 1)) (x :: b) a) as (s2 & E2 & R2).
      { repeat split; cbn [i_mem i_gptr fst snd rev length]; [exact M|now rewrite <- app_assoc|lia]. }
      rewrite E2. cbn [obind]. exists s2. split; [reflexivity|]. rewrite <- app_assoc, M. exact R2.
  Qed.

  Lemma i_seek_ok memory s f pos : irep memory s f -> Z.of_nat (length memory) < 2 ^ 63 -> 0 <= pos ->
    exists s', i_seek s pos = Some (fst (g_seek f pos), s') /\ irep memory s' (snd (g_seek f pos)).
  Proof.
    intros R Hm Hpos. pose proof (irep_length _ _ _ R) as L. pose proof R as (E & M & G).
    unfold i_seek, g_seek. rewrite M. replace (0 <=? pos) with true by lia. cbn [andb].
    assert (L2 : i_get_size s = Z.of_nat (length memory)) by (unfold i_get_size; now rewrite E). rewrite L2.
    destruct (Z.leb_spec pos (Z.of_nat (length memory))); [|exists s; now split].
    destruct (cast_off pos ltac:(lia)) as (K1 & K2). rewrite K1, K2. eexists. split; [reflexivity|].
    repeat split; cbn [i_mem i_gptr fst snd]; [exact E|now rewrite rev_involutive, firstn_skipn|].
    rewrite rev_length, firstn_length. lia.
  Qed.

  Lemma g_seek_out (f : ifile C) pos : pos < 0 \/ Z.of_nat (length (rev (fst f) ++ snd f)) < pos -> g_seek f pos = (-1, f).
  Proof.
    intros H. unfold g_seek. now replace ((0 <=? pos) && (pos <=? Z.of_nat (length (rev (fst f) ++ snd f)))) with false by lia.
  Qed.

  Lemma i_step_ok memory s f op : irep memory s f -> Z.of_nat (length memory) < 2 ^ 63 -> iop_ok op ->
    exists s', i_step s op = Some (fst (g_step f op), s') /\ irep memory s' (snd (g_step f op)).
  Proof.
    intros R Hm Hop. pose proof (irep_length _ _ _ R) as L. destruct f as (b, a). destruct op as [n| |off dir which|pos init which]; cbn [i_step g_step].
    - destruct (sgetn_ok memory n s b a R) as (s' & E & R'). rewrite E. cbn [obind]. exists s'. now split.
    - pose proof R as (E & M & G). cbn [fst snd] in *. unfold i_sungetc. rewrite G. destruct b as [|x b]; cbn [length].
      + cbn [Z.of_nat Z.ltb Z.compare obind]. exists s. now split.
      + replace (0 <? Z.of_nat (S (length b))) with true by lia. rewrite E. cbn [rev] in M.
        rewrite <- app_assoc in M. cbn [app] in M. rewrite <- M.
        replace (Z.to_nat (Z.of_nat (S (length b)) - 1)) with (length b) by lia.
        rewrite nth_error_app2 by (rewrite rev_length; lia). rewrite rev_length, Nat.sub_diag. cbn [nth_error obind].
        eexists. split; [reflexivity|]. repeat split; cbn [i_mem i_gptr fst snd length]; lia.
    - unfold i_seekoff. destruct which; [|cbn [obind]; exists s; now split].
      pose proof R as (E & M & G). cbn [fst snd] in *.
      set (base := match dir with Beg => 0 | Cur => i_gptr s | End => i_get_size s end).
      set (base' := match dir with Beg => 0 | Cur => Z.of_nat (length b) | End => Z.of_nat (length b + length a) end).
      assert (Lm : length memory = (length b + length a)%nat) by (rewrite <- M, app_length, rev_length; lia).
      assert (B : base = base' /\ 0 <= base <= Z.of_nat (length memory)).
      { unfold base, base'. destruct dir; rewrite ?G, ?L; lia. }
      destruct B as (<- & B). cbn in Hop. unfold off_ok in Hop.
      rewrite try_int_add_spec by (apply size_ok || apply off_ity_ok || (apply range_size; lia) || (apply range_off; lia)).
      unfold add_res. rewrite rangeb_size.
      destruct ((0 <=? base + off) && (base + off <? 2 ^ 64)) eqn:Eb; cbn [obind].
      + destruct (i_seek_ok memory s (b, a) (base + off) R Hm ltac:(lia)) as (s' & E2 & R2). rewrite E2. cbn [obind].
        destruct (g_seek (b, a) (base + off)) as (r, f'). exists s'. now split.
      + rewrite g_seek_out by (cbn [fst snd]; rewrite M; lia). exists s. now split.
    - unfold i_seekpos. destruct (init && which); [|cbn [obind]; exists s; now split].
      cbn in Hop. unfold off_ok in Hop.
      rewrite try_int_cast_spec by (apply size_ok || apply off_ity_ok || (apply range_off; lia)).
      rewrite rangeb_size. destruct ((0 <=? pos) && (pos <? 2 ^ 64)) eqn:Eb.
      + destruct (i_seek_ok memory s (b, a) pos R Hm ltac:(lia)) as (s' & E2 & R2). rewrite E2. cbn [obind].
        destruct (g_seek (b, a) pos) as (r, f'). exists s'. now split.
      + rewrite g_seek_out by lia. cbn [obind]. exists s. now split.
  Qed.

  Lemma i_run_ok memory : Z.of_nat (length memory) < 2 ^ 63 -> forall ops s f, irep memory s f -> Forall iop_ok ops ->
    exists s', i_run s ops = Some (fst (g_run f ops), s') /\ irep memory s' (snd (g_run f ops)).
  Proof.
    intros Hm. induction ops as [|op ops IH]; intros s f R H; [exists s; now split|].
    inversion H; subst. destruct (i_step_ok memory s f op R Hm) as (s1 & E1 & R1); [assumption|].
    cbn [i_run g_run]. rewrite E1. cbn [obind]. destruct (g_step f op) as (r, f1). cbn [fst snd] in *.
    destruct (IH s1 f1 R1) as (s2 & E2 & R2); [assumption|]. rewrite E2. cbn [obind].
    destruct (g_run f1 ops) as (rs, f2). exists s2. now split.
  Qed.
End M.
