(* Lemmas about the formatting of timestamps *)
From Coq Require Import ZArith Bool List Lia.
From Verif Require Import CInt IntModel IntSpec IntProofs IntTextModel IntTextSpec IntTextProofs IntTextProps StampModel StampSpec ArrLib.
Import ListNotations.
Open Scope Z_scope.

Lemma format_text_app : forall a b, format_text (a ++ b) = format_text a ++ format_text b.
Proof. intros. unfold format_text. rewrite map_app, concat_app. reflexivity. Qed.

Section P.
Context {C : Type} (widen : Z -> C) (long : ity) (conv : option Z -> Z -> list C).

Lemma conventional_app : forall a b,
  conventional widen conv (a ++ b) = conventional widen conv a ++ conventional widen conv b.
Proof. intros. unfold conventional. rewrite map_app, concat_app. reflexivity. Qed.

Lemma put_right : forall ts, Forall token_ok ts ->
  put widen conv (format_text ts) = Some (conventional widen conv ts).
Proof.
  induction 1 as [|t ts Ht _ IH]; [reflexivity|].
  unfold format_text, conventional in *. cbn [map concat].
  destruct t as [c|c|m c]; cbn [token_ok token_text expansion app put] in *.
  - destruct (Z.eqb_spec c 37); [contradiction|]. rewrite IH. reflexivity.
  - change (37 =? 37) with true. cbn match. destruct Ht as [H1 H2].
    destruct (Z.eqb_spec c 69); [contradiction|]. destruct (Z.eqb_spec c 79); [contradiction|]. cbn [orb].
    rewrite IH. reflexivity.
  - change (37 =? 37) with true. cbn match. destruct Ht as [[-> | ->] _]; cbn [Z.eqb orb Pos.eqb]; rewrite IH; reflexivity.
Qed.

Lemma skipn_length_app : forall {A} (a b : list A), skipn (length a) (a ++ b) = b.
Proof. intros. rewrite skipn_app, skipn_all, Nat.sub_diag. reflexivity. Qed.

Lemma find_app : forall a b ch,
  find (a ++ b) ch (length a) = option_map (fun k => (length a + k)%nat) (index_of ch b).
Proof. intros. unfold find. rewrite skipn_length_app. reflexivity. Qed.

Lemma loop_skip : forall fuel a c b d v i out, c <> 37 ->
  format_loop widen long fuel conv (a ++ c :: b) d v i (length a) out =
  format_loop widen long fuel conv (a ++ c :: b) d v i (S (length a)) out.
Proof.
  intros [|fuel] a c b d v i out N; [reflexivity|]. cbn [format_loop].
  replace (find (a ++ c :: b) 37 (length a)) with (find (a ++ c :: b) 37 (S (length a))); [reflexivity|].
  rewrite (find_app a (c :: b)).
  replace (a ++ c :: b) with ((a ++ [c]) ++ b) by (rewrite <- app_assoc; reflexivity).
  replace (S (length a)) with (length (a ++ [c])) by (rewrite app_length; cbn [length]; lia).
  rewrite find_app. cbn [index_of]. destruct (Z.eqb_spec c 37); [contradiction|].
  destruct (index_of 37 b); [|reflexivity]. cbn [option_map]. f_equal. rewrite app_length. cbn [length]. lia.
Qed.

Lemma part_right : forall pre ts rest, Forall token_ok ts ->
  format_part widen conv (pre ++ format_text ts ++ rest) (length pre) (length (pre ++ format_text ts)) =
  Some (conventional widen conv ts).
Proof.
  intros pre ts rest H. unfold format_part.
  replace (length pre <=? length (pre ++ format_text ts ++ rest))%nat with true
    by (symmetry; apply Nat.leb_le; rewrite !app_length; lia).
  rewrite skipn_length_app, app_length.
  replace (length pre + length (format_text ts) - length pre)%nat with (length (format_text ts)) by lia.
  rewrite firstn_app, firstn_all, Nat.sub_diag. cbn [firstn]. rewrite app_nil_r. apply put_right. assumption.
Qed.

(* the rest of the function from the start of an iteration of the loop *)
Definition finish (format : list Z) (res : option (nat * list C)) : option (list C) :=
  let? r := res in
  let '(i_0, out) := r in
  let? part := format_part widen conv format i_0 (length format) in
  Some (out ++ part).

Lemma loop_right : forall d v digits, format_a widen long false v 10 d = Some (Some digits) ->
  forall ts2 ts1 pre fuel out format, Forall token_ok ts1 -> Forall token_ok ts2 ->
  format = pre ++ format_text ts1 ++ format_text ts2 -> (length (format_text ts2) < fuel)%nat ->
  exists out2, all_extended widen conv (widen 46 :: digits) ts2 out2 /\
    finish format (format_loop widen long fuel conv format d v (length pre) (length (pre ++ format_text ts1)) out) =
    Some (out ++ conventional widen conv ts1 ++ out2).
Proof.
  intros d v digits FD. induction ts2 as [|t ts2 IH]; intros ts1 pre fuel out format H1 H2 E L.
  - exists []. split; [constructor|]. rewrite app_nil_r. destruct fuel as [|fuel]; [lia|]. cbn [format_loop].
    unfold format_text in E at 2. cbn [map concat] in E.
    assert (F : find format 37 (length (pre ++ format_text ts1)) = None).
    { subst format. rewrite app_assoc, find_app. reflexivity. }
    rewrite F. unfold finish. cbn [obind]. subst format.
    replace (length (pre ++ format_text ts1 ++ [])) with (length (pre ++ format_text ts1))
      by (rewrite app_nil_r; reflexivity).
    rewrite part_right by assumption. reflexivity.
  - pose proof (Forall_inv H2) as Ht. pose proof (Forall_inv_tail H2) as H2'.
    assert (E2 : format_text (t :: ts2) = token_text t ++ format_text ts2) by reflexivity.
    rewrite E2 in E, L. rewrite app_length in L.
    assert (H1' : Forall token_ok (ts1 ++ [t])) by (apply Forall_app; split; [assumption|constructor; [assumption|constructor]]).
    assert (T1 : format_text (ts1 ++ [t]) = format_text ts1 ++ token_text t).
    { rewrite format_text_app. unfold format_text at 2. cbn [map concat]. rewrite app_nil_r. reflexivity. }
    assert (C1 : conventional widen conv (ts1 ++ [t]) = conventional widen conv ts1 ++ expansion widen conv t).
    { rewrite conventional_app. unfold conventional at 2. cbn [map concat]. rewrite app_nil_r. reflexivity. }
    assert (E' : format = pre ++ format_text (ts1 ++ [t]) ++ format_text ts2).
    { rewrite T1, E, <- !app_assoc. reflexivity. }
    (* t is skipped *)
    assert (SK : forall fuel', (length (format_text ts2) < fuel')%nat -> ~ has_seconds t ->
      exists out2, all_extended widen conv (widen 46 :: digits) (t :: ts2) out2 /\
        finish format (format_loop widen long fuel' conv format d v (length pre)
          (length (pre ++ format_text ts1) + length (token_text t))%nat out) =
        Some (out ++ conventional widen conv ts1 ++ out2)).
    { intros fuel' L' N. destruct (IH (ts1 ++ [t]) pre fuel' out format H1' H2' E' L') as (out2 & X & Y).
      exists (expansion widen conv t ++ out2). split; [constructor; assumption|].
      rewrite T1, C1, app_assoc in Y. rewrite (app_length (pre ++ format_text ts1)) in Y. rewrite Y, <- !app_assoc. reflexivity. }
    set (a := pre ++ format_text ts1) in *.
    destruct t as [c|c|m c]; cbn [token_text token_ok app length] in *.
    + assert (EF : format = a ++ c :: format_text ts2) by (rewrite E; unfold a; rewrite <- app_assoc; reflexivity).
      rewrite EF, loop_skip by assumption. rewrite <- EF. rewrite <- Nat.add_1_r. apply SK; [lia|].
      intros [X|X]; discriminate.
    + assert (EF : format = a ++ 37 :: c :: format_text ts2) by (rewrite E; unfold a; rewrite <- app_assoc; reflexivity).
      destruct fuel as [|fuel]; [lia|]. cbn [format_loop].
      assert (F : find format 37 (length a) = Some (length a)).
      { rewrite EF, find_app. cbn [index_of]. change (37 =? 37) with true. cbn. f_equal. lia. }
      rewrite F. clear F.
      replace (S (length a) <? length format)%nat with true
        by (symmetry; apply Nat.ltb_lt; rewrite EF, app_length; cbn [length]; lia).
      assert (G : nth_error format (S (length a)) = Some c).
      { rewrite EF, nth_error_app2 by lia. replace (S (length a) - length a)%nat with 1%nat by lia. reflexivity. }
      rewrite G. clear G. cbn [obind].
      destruct (negb (c =? 83) && negb (c =? 84)) eqn:D.
      * replace (S (S (length a))) with (length a + 2)%nat by lia. apply SK; [lia|].
        intros [X|X]; injection X as ->; discriminate.
      * assert (HS : has_seconds (Conv c)).
        { unfold has_seconds. destruct (Z.eqb_spec c 83) as [->|]; [left; reflexivity|].
          destruct (Z.eqb_spec c 84) as [->|]; [right; reflexivity|discriminate]. }
        assert (LE : S (S (length a)) = length (pre ++ format_text (ts1 ++ [Conv c]))).
        { rewrite T1, app_assoc. fold a. rewrite app_length. cbn [length]. lia. }
        assert (PR : format_part widen conv format (length pre) (S (S (length a))) =
                     Some (conventional widen conv (ts1 ++ [Conv c]))).
        { rewrite LE, E'. apply part_right. assumption. }
        rewrite PR, FD. cbn [obind].
        destruct (IH [] (pre ++ format_text (ts1 ++ [Conv c])) fuel
                     (out ++ conventional widen conv (ts1 ++ [Conv c]) ++ [widen 46] ++ digits) format)
          as (out2 & X & Y); [constructor|assumption| |lia|].
        { rewrite E' at 1. rewrite <- !app_assoc. reflexivity. }
        exists (expansion widen conv (Conv c) ++ (widen 46 :: digits) ++ out2).
        split; [apply ext_seconds; assumption|].
        change (format_text []) with (@nil Z) in Y. change (conventional widen conv []) with (@nil C) in Y.
        rewrite app_nil_r, <- LE in Y. rewrite Y, C1. cbn [app]. rewrite <- !app_assoc. cbn [app]. rewrite <- ?app_assoc. reflexivity.
    + assert (EF : format = a ++ 37 :: m :: c :: format_text ts2) by (rewrite E; unfold a; rewrite <- app_assoc; reflexivity).
      destruct Ht as [Hm Hc].
      destruct fuel as [|fuel]; [lia|]. cbn [format_loop].
      assert (F : find format 37 (length a) = Some (length a)).
      { rewrite EF, find_app. cbn [index_of]. change (37 =? 37) with true. cbn. f_equal. lia. }
      rewrite F. clear F.
      replace (S (length a) <? length format)%nat with true
        by (symmetry; apply Nat.ltb_lt; rewrite EF, app_length; cbn [length]; lia).
      assert (G : nth_error format (S (length a)) = Some m).
      { rewrite EF, nth_error_app2 by lia. replace (S (length a) - length a)%nat with 1%nat by lia. reflexivity. }
      rewrite G. clear G. cbn [obind].
      replace (negb (m =? 83) && negb (m =? 84)) with true by (destruct Hm as [-> | ->]; reflexivity).
      assert (EF2 : format = (a ++ [37; m]) ++ c :: format_text ts2) by (rewrite EF, <- app_assoc; reflexivity).
      replace (S (S (length a))) with (length (a ++ [37; m])) by (rewrite app_length; cbn [length]; lia).
      rewrite EF2, loop_skip by assumption. rewrite <- EF2.
      replace (S (length (a ++ [37; m]))) with (length a + 3)%nat by (rewrite app_length; cbn [length]; lia).
      apply SK; [lia|]. intros [X|X]; discriminate.
Qed.

Definition num_digits (p : precision) : Z :=
  match p with Seconds => 0 | Milliseconds => 3 | Microseconds => 6 | Nanoseconds => 9 end.

Lemma subseconds_right : forall ns p, 0 <= ns -> p <> Seconds ->
  subseconds ns p = (num_digits p, ns / 10 ^ (9 - num_digits p)).
Proof.
  intros ns p H N. destruct p; cbn [subseconds num_digits]; try contradiction; f_equal.
  - rewrite Z.quot_div_nonneg by lia. reflexivity.
  - rewrite Z.quot_div_nonneg by lia. reflexivity.
  - change (10 ^ (9 - 9)) with 1. rewrite Z.div_1_r. reflexivity.
Qed.

Lemma positional_lower : forall radix ds d, 1 <= radix -> Forall (fun x => 0 <= x) (d :: ds) ->
  d * radix ^ Z.of_nat (length ds) <= positional radix (d :: ds).
Proof.
  intros radix ds d Hr H. cbn [positional]. enough (0 <= positional radix ds) by lia.
  inversion H as [|? ? _ H']; subst. clear - H' Hr. induction H' as [|x l Hx _ IH]; cbn [positional]; [lia|].
  assert (0 < radix ^ Z.of_nat (length l)) by (apply Z.pow_pos_nonneg; lia). nia.
Qed.

Lemma digits_right : forall ns p, ity_ok long -> representable long ns -> 0 <= ns < 10 ^ 9 -> p <> Seconds ->
  exists digits, format_a widen long false (ns / 10 ^ (9 - num_digits p)) 10 (num_digits p) = Some (Some digits) /\
    fraction widen (num_digits p) ns (widen 46 :: digits).
Proof.
  intros ns p HL HR HN NP. set (v := ns / 10 ^ (9 - num_digits p)). set (d := num_digits p) in *.
  assert (Hd : 0 < d <= 9) by (unfold d; destruct p; cbn; try lia; contradiction).
  assert (P : 0 < 10 ^ (9 - d)) by (apply Z.pow_pos_nonneg; lia).
  assert (Hv : 0 <= v < 10 ^ d).
  { unfold v. split; [apply Z.div_pos; lia|]. apply Z.div_lt_upper_bound; [lia|].
    rewrite <- Z.pow_add_r by lia. replace (9 - d + d) with 9 by lia. lia. }
  assert (Hv2 : v <= ns) by (unfold v; apply Z.div_le_upper_bound; [lia|]; nia).
  assert (RV : representable long v).
  { unfold representable in *. destruct (isigned long); lia. }
  destruct (format_exact C widen long false v 10 d HL RV ltac:(lia)) as (m & cs & ds & Hm & _ & EF & DS & PO & _ & L1 & L2).
  rewrite (Hm ltac:(lia)) in *. clear Hm.
  destruct (Z.ltb_spec v 0); [lia|]. cbn [app] in EF.
  exists (map widen cs). split; [exact EF|]. exists cs, ds. split; [reflexivity|]. split; [|split; [exact DS|]].
  - assert (LD : length cs = length ds) by (destruct DS as [F _]; clear - F; induction F; cbn; congruence).
    assert (ND : Forall (fun x => 0 <= x) ds).
    { destruct DS as [F _]. clear - F. induction F as [|c x cs ds Hc _ IH]; constructor; [|assumption].
      unfold digit_char in Hc. lia. }
    destruct ds as [|x ds']; [cbn [length] in LD; lia|].
    destruct (Z.eq_dec x 0) as [->|NX]; [specialize (L2 ds' eq_refl); lia|].
    pose proof (positional_lower 10 ds' x ltac:(lia) ND) as PL. rewrite PO, Z.abs_eq in PL by lia.
    inversion ND as [|? ? X0 _]; subst.
    assert (Q : 10 ^ Z.of_nat (length ds') < 10 ^ d).
    { assert (0 < 10 ^ Z.of_nat (length ds')) by (apply Z.pow_pos_nonneg; lia). nia. }
    apply Z.pow_lt_mono_r_iff in Q; [|lia|lia]. rewrite LD in *. cbn [length] in *. lia.
  - rewrite PO. apply Z.abs_eq. lia.
Qed.

Lemma do_format_right : forall ns p ts, ity_ok long -> representable long ns -> 0 <= ns < 10 ^ 9 -> p <> Seconds ->
  Forall token_ok ts ->
  exists frac out, fraction widen (num_digits p) ns frac /\ all_extended widen conv frac ts out /\
    do_format widen long conv ns (format_text ts) p = Some out.
Proof.
  intros ns p ts HL HR HN NP HT.
  destruct (digits_right ns p HL HR HN NP) as (digits & FD & FR).
  destruct (loop_right _ _ digits FD ts [] [] (S (length (format_text ts))) [] (format_text ts))
    as (out & X & Y); [constructor|assumption|reflexivity|lia|].
  exists (widen 46 :: digits), out. split; [exact FR|]. split; [exact X|].
  unfold do_format. rewrite subseconds_right by (assumption || lia).
  replace (num_digits p >? 0) with true by (destruct p; try reflexivity; contradiction).
  exact Y.
Qed.

Lemma do_format_seconds : forall ns ts, Forall token_ok ts ->
  do_format widen long conv ns (format_text ts) Seconds = Some (conventional widen conv ts).
Proof.
  intros ns ts HT. unfold do_format. cbn [subseconds Z.gtb Z.compare obind].
  pose proof (part_right [] ts [] HT) as P. cbn [app length] in P. rewrite app_nil_r in P. rewrite P. reflexivity.
Qed.

Lemma extended_none : forall frac ts out, all_extended widen conv frac ts out ->
  Forall (fun t => ~ has_seconds t) ts -> out = conventional widen conv ts.
Proof.
  induction 1 as [|t ts out N _ IH|t ts out S _ IH]; intros F; [reflexivity|..]; inversion F; subst; [|contradiction].
  rewrite IH by assumption. reflexivity.
Qed.

Lemma extended_documented : forall frac ts out, all_extended widen conv frac ts out ->
  (forall a t b, ts = a ++ t :: b -> has_seconds t -> Forall (fun t => ~ has_seconds t) b) ->
  documented widen conv frac ts out.
Proof.
  induction 1 as [|t ts out N X IH|t ts out S X IH]; intros U.
  - apply (doc_none widen conv frac []). constructor.
  - assert (D : documented widen conv frac ts out).
    { apply IH. intros a t' b E HS. apply (U (t :: a) t' b); [rewrite E; reflexivity|assumption]. }
    destruct D as [ts F|ts t' ts' F HS].
    + apply (doc_none widen conv frac (t :: ts)). constructor; assumption.
    + assert (F' : Forall (fun t => ~ has_seconds t) (t :: ts)) by (constructor; assumption).
      pose proof (doc_first widen conv frac (t :: ts) t' ts' F' HS) as D.
      unfold conventional in D at 1. cbn [map concat] in D. rewrite <- app_assoc in D. exact D.
  - pose proof (U [] t ts eq_refl S) as F. rewrite (extended_none frac ts out X F).
    exact (doc_first widen conv frac [] t ts (Forall_nil _) S).
Qed.
End P.

Lemma timespec_right : forall K to_time_t time, 0 < K -> - K < to_time_t time * K - time < K ->
  time_point_to_timespec K to_time_t time = Some (time / K, (time mod K) * 10 ^ 9 / K).
Proof.
  intros K f t HK H. unfold time_point_to_timespec.
  assert (G : forall s, 0 <= t - s * K < K -> s = t / K /\ t - s * K = t mod K).
  { intros s Hs. assert (s = t / K) by (apply Z.div_unique with (t - s * K); lia). split; [assumption|].
    subst s. rewrite Z.mod_eq by lia. lia. }
  assert (R : forall x, 0 <= x < K -> 0 <= x * 10 ^ 9 / K < 1000000000).
  { intros x Hx. split; [apply Z.div_pos; lia|]. apply Z.div_lt_upper_bound; lia. }
  pose proof (Z.mod_pos_bound t K HK) as MB. specialize (R _ MB).
  rewrite Z.gtb_ltb. destruct (Z.ltb_spec t (f t * K)).
  - destruct (G (f t - 1)) as [G1 G2]; [lia|]. rewrite G2, <- G1, Z.quot_div_nonneg by lia.
    destruct (Z.geb_spec (t mod K * 10 ^ 9 / K) 0), (Z.ltb_spec (t mod K * 10 ^ 9 / K) 1000000000); try lia. reflexivity.
  - destruct (G (f t)) as [G1 G2]; [lia|]. rewrite G2, <- G1, Z.quot_div_nonneg by lia.
    destruct (Z.geb_spec (t mod K * 10 ^ 9 / K) 0), (Z.ltb_spec (t mod K * 10 ^ 9 / K) 1000000000); try lia. reflexivity.
Qed.
