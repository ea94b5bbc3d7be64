(* C205 - C207: formatting of timestamps with subsecond precision. *)
From Coq Require Import ZArith Bool List Lia.
From Verif Require Import CInt IntModel IntSpec IntTextSpec StampModel StampSpec StampProofs ArrLib.
Import ListNotations.
Open Scope Z_scope.

(* C205.  A time point is split into whole seconds, rounded down, and nanoseconds, no matter how the clock rounds (by less
   than a second).  The assertion does not fail. *)
Theorem timespec_exact : forall K to_time_t time, 0 < K -> - K < to_time_t time * K - time < K ->
  exists sec ns, time_point_to_timespec K to_time_t time = Some (sec, ns) /\
    0 <= ns < 10 ^ 9 /\ sec * K <= time < (sec + 1) * K /\
    ns * K <= (time - sec * K) * 10 ^ 9 < (ns + 1) * K.
Proof.
  intros K f t HK H. rewrite (timespec_right K f t HK H). do 2 eexists. split; [reflexivity|].
  pose proof (Z.mod_pos_bound t K HK) as MB.
  assert (E : t - t / K * K = t mod K) by (rewrite Z.mod_eq by lia; lia). rewrite E.
  pose proof (Z.div_mod (t mod K * 10 ^ 9) K ltac:(lia)). pose proof (Z.mod_pos_bound (t mod K * 10 ^ 9) K HK).
  pose proof (Z.div_mod t K ltac:(lia)).
  split; [split; [apply Z.div_pos; lia | apply Z.div_lt_upper_bound; lia]|]. split; nia.
Qed.

(* a clock with microseconds, 1.25 seconds before the epoch, rounding toward zero, and to nearest *)
Example timespec_case :
  time_point_to_timespec (10 ^ 6) (fun t => Z.quot t (10 ^ 6)) (-1250000) = Some (-2, 750000000) /\
  time_point_to_timespec (10 ^ 6) (fun t => (t + 500000) / 10 ^ 6) 1750001 = Some (1, 750001000).
Proof. split; reflexivity. Qed.

(* Each %S and %T gets the fraction, and all else is as with std::put_time() *)
Theorem timestamp_format_all : forall (C : Type) (widen : Z -> C) long conv ns p ts,
  ity_ok long -> representable long ns -> 0 <= ns < 10 ^ 9 -> p <> Seconds -> Forall token_ok ts ->
  exists frac out, fraction widen (num_digits p) ns frac /\ all_extended widen conv frac ts out /\
    do_format widen long conv ns (format_text ts) p = Some out.
Proof. intros. apply do_format_right; assumption. Qed.

(* C206 in full would say that, for all formats, the fraction is added to the first %S or %T only.  That is false, see
   below.  It holds when there is at most one, and when there are no subsecond digits. *)
Theorem timestamp_format_partial : forall (C : Type) (widen : Z -> C) long conv ns ts,
  ity_ok long -> representable long ns -> 0 <= ns < 10 ^ 9 -> Forall token_ok ts ->
  do_format widen long conv ns (format_text ts) Seconds = Some (conventional widen conv ts) /\
  forall p d, (p = Milliseconds /\ d = 3 \/ p = Microseconds /\ d = 6 \/ p = Nanoseconds /\ d = 9) ->
    (forall a t b, ts = a ++ t :: b -> has_seconds t -> Forall (fun t => ~ has_seconds t) b) ->
    exists frac out, fraction widen d ns frac /\ documented widen conv frac ts out /\
      do_format widen long conv ns (format_text ts) p = Some out.
Proof.
  intros C widen long conv ns ts HL HR HN HT. split; [apply do_format_seconds; assumption|].
  intros p d HP U.
  assert (NP : p <> Seconds) by (destruct HP as [[-> _]|[[-> _]|[-> _]]]; discriminate).
  destruct (do_format_right widen long conv ns p ts HL HR HN NP HT) as (frac & out & F & X & E).
  exists frac, out. split.
  - destruct HP as [[-> ->]|[[-> ->]|[-> ->]]]; exact F.
  - split; [|exact E]. apply extended_documented; assumption.
Qed.

Definition long64 : ity := ITy 64 true.
Definition conv_example (m : option Z) (c : Z) : list Z := match m with None => [1000 + c] | Some m => [1000 * m + c] end.

(* "%H %OS%%S %S!" with 7 milliseconds and a bit *)
Definition tokens_example : list token :=
  [Conv 72; Char 32; ModConv 79 83; Conv 37; Char 83; Char 32; Conv 83; Char 33].

Example timestamp_format_case : Forall token_ok tokens_example /\
  format_text tokens_example = [37; 72; 32; 37; 79; 83; 37; 37; 83; 32; 37; 83; 33] /\
  (forall a t b, tokens_example = a ++ t :: b -> has_seconds t -> Forall (fun t => ~ has_seconds t) b) /\
  do_format (fun c => c) long64 conv_example 7654321 (format_text tokens_example) Milliseconds =
    Some [1072; 32; 79083; 1037; 83; 32; 1083; 46; 48; 48; 55; 33].
Proof.
  split; [repeat constructor; cbn; lia|]. split; [reflexivity|]. split; [|vm_compute; reflexivity].
  intros a t b E S.
  do 8 (destruct a as [|? a]; [cbn in E; injection E as <- <-; destruct S as [S|S]; try discriminate S;
    repeat (apply Forall_cons; [intros [X|X]; discriminate|]); apply Forall_nil | cbn in E; try discriminate; injection E as _ E]).
  destruct a; discriminate.
Qed.

(* with "%S%S" and milliseconds, the fraction is also added to the second one *)
Theorem timestamp_format_refuted : exists (conv : option Z -> Z -> list Z) ns ts frac out,
  0 <= ns < 10 ^ 9 /\ Forall token_ok ts /\ fraction (fun c => c) 3 ns frac /\
  do_format (fun c => c) long64 conv ns (format_text ts) Milliseconds = Some out /\
  ~ documented (fun c => c) conv frac ts out.
Proof.
  exists conv_example, 7000000, [Conv 83; Conv 83], [46; 48; 48; 55], [1083; 46; 48; 48; 55; 1083; 46; 48; 48; 55].
  split; [lia|]. split; [repeat constructor; cbn; lia|]. split.
  { exists [48; 48; 55], [0; 0; 7]. split; [reflexivity|]. split; [reflexivity|]. split; [|reflexivity].
    split; [repeat constructor; unfold digit_char; lia|repeat constructor]. }
  split; [vm_compute; reflexivity|].
  assert (HS : has_seconds (Conv 83)) by (left; reflexivity).
  assert (G : forall ts out, documented (fun c => c) conv_example [46; 48; 48; 55] ts out -> ts = [Conv 83; Conv 83] ->
    out = [1083; 46; 48; 48; 55; 1083]).
  { intros ts out D. destruct D as [ts F|ts t ts' F S]; intros E.
    - subst ts. exfalso. exact (Forall_inv F HS).
    - destruct ts as [|t0 ts]; cbn [app] in E; injection E as E0 E1; subst.
      + reflexivity.
      + exfalso. exact (Forall_inv F HS). }
  intros D. specialize (G _ _ D eq_refl). discriminate.
Qed.

(* C207.  With the default formats, what is generated from a time point is the date (%F), T, the time (%T), the fraction (if
   there are subsecond digits), and the time zone *)
Theorem timestamp_default : forall (C tm : Type) (widen : Z -> C) long (conv : tm -> option Z -> Z -> list C)
    (breakdown : Z -> tm) K to_time_t time,
  ity_ok long -> isigned long = true -> 32 <= iwidth long -> 0 < K -> - K < to_time_t time * K - time < K ->
  exists sec ns, sec * K <= time < (sec + 1) * K /\ ns * K <= (time - sec * K) * 10 ^ 9 < (ns + 1) * K /\
  forall p d, (p = Seconds /\ d = 0 \/ p = Milliseconds /\ d = 3 \/ p = Microseconds /\ d = 6 \/ p = Nanoseconds /\ d = 9) ->
    exists frac, (d = 0 -> frac = []) /\ (d <> 0 -> fraction widen d ns frac) /\
      let date := conv (breakdown sec) None 70 ++ [widen 84] ++ conv (breakdown sec) None 84 ++ frac in
      format_time_point widen long conv breakdown default_local K to_time_t time [] p =
        Some (date ++ conv (breakdown sec) None 122) /\
      format_time_point widen long conv breakdown default_utc K to_time_t time [] p = Some (date ++ [widen 90]).
Proof.
  intros C tm widen long conv breakdown K f t HL HS HW HK H.
  destruct (timespec_exact K f t HK H) as (sec & ns & E & HN & B1 & B2).
  exists sec, ns. split; [exact B1|]. split; [exact B2|]. intros p d HP.
  assert (HR : representable long ns).
  { unfold representable. rewrite HS. assert (2 ^ 31 <= 2 ^ (iwidth long - 1)) by (apply Z.pow_le_mono_r; lia). lia. }
  set (tl := [Conv 70; Char 84; Conv 84; Conv 122]). set (tu := [Conv 70; Char 84; Conv 84; Char 90]).
  assert (OL : Forall token_ok tl) by (repeat constructor; cbn; lia).
  assert (OU : Forall token_ok tu) by (repeat constructor; cbn; lia).
  unfold format_time_point. rewrite E. cbn [obind].
  change default_local with (format_text tl). change default_utc with (format_text tu).
  destruct HP as [[-> ->]|HP].
  - exists []. split; [reflexivity|]. split; [lia|].
    rewrite !do_format_seconds by assumption. cbn [tl tu conventional map concat expansion]. 
    rewrite !app_nil_r. cbn [app]. rewrite <- !app_assoc. cbn [app]. split; reflexivity.
  - assert (NP : p <> Seconds) by (destruct HP as [[-> _]|[[-> _]|[-> _]]]; discriminate).
    assert (ND : d = num_digits p) by (destruct HP as [[-> ->]|[[-> ->]|[-> ->]]]; reflexivity).
    assert (D0 : d <> 0) by (destruct HP as [[_ ->]|[[_ ->]|[_ ->]]]; discriminate).
    destruct (digits_right widen long ns p HL HR HN NP) as (digits & FD & FR).
    exists (widen 46 :: digits). split; [contradiction|]. split; [intros _; rewrite ND; exact FR|].
    assert (G : forall ts, Forall token_ok ts -> exists out,
      all_extended widen (conv (breakdown sec)) (widen 46 :: digits) ts out /\
      do_format widen long (conv (breakdown sec)) ns (format_text ts) p = Some out).
    { intros ts HT.
      destruct (loop_right widen long (conv (breakdown sec)) _ _ digits FD ts [] [] (S (length (format_text ts))) []
        (format_text ts)) as (out & X & Y); [constructor|assumption|reflexivity|lia|].
      exists out. split; [exact X|]. unfold do_format. rewrite subseconds_right by (assumption || lia).
      replace (num_digits p >? 0) with true by (destruct p; try reflexivity; contradiction). exact Y. }
    assert (X1 : forall z out, ~ has_seconds z ->
      all_extended widen (conv (breakdown sec)) (widen 46 :: digits) [Conv 70; Char 84; Conv 84; z] out ->
      out = (conv (breakdown sec) None 70 ++ [widen 84] ++ conv (breakdown sec) None 84 ++ widen 46 :: digits) ++
            expansion widen (conv (breakdown sec)) z).
    { intros z out NZ X. inversion X as [|? ? ? _ X2|? ? ? S _]; subst; [|destruct S; discriminate].
      inversion X2 as [|? ? ? _ X3|? ? ? S _]; subst; [|destruct S; discriminate].
      inversion X3 as [|? ? ? N _|? ? ? _ X4]; subst; [exfalso; apply N; right; reflexivity|].
      inversion X4 as [|? ? ? _ X5|? ? ? S _]; subst; [|contradiction].
      inversion X5; subst. cbn [expansion]. rewrite app_nil_r. cbn [app]. rewrite <- !app_assoc. cbn [app].
      rewrite <- !app_assoc. reflexivity. }
    destruct (G tl OL) as (ol & XL & ->). destruct (G tu OU) as (ou & XU & ->).
    apply X1 in XL; [|intros [X|X]; discriminate]. apply X1 in XU; [|intros [X|X]; discriminate].
    subst ol ou. split; reflexivity.
Qed.

Example timestamp_default_case :
  format_time_point (fun c => c) long64 (fun sec m c => [sec * 1000 + c]) (fun sec => sec) default_utc
    (10 ^ 9) (fun t => Z.quot t (10 ^ 9)) 5012345678 [] Microseconds =
  Some [5070; 84; 5084; 46; 48; 49; 50; 51; 52; 53; 90].
Proof. vm_compute. reflexivity. Qed.

Print Assumptions timespec_exact.
Print Assumptions timestamp_format_all.
Print Assumptions timestamp_format_partial.
Print Assumptions timestamp_format_refuted.
Print Assumptions timestamp_default.
