(* Properties C158 to C160: checked casts to and from two's complement representation. *)

From Coq Require Import ZArith Bool List Lia.
From Verif Require Import CInt IntSpec IntModel IntProofs IntProofs4 IntProps TwosCastModel TwosCastProofs.
Import ListNotations.
Open Scope Z_scope.

(* a pattern of type T denotes the number x, if unsigned types are taken to hold two's
   complement *)
Definition denotes (T : ity) (p x : Z) : Prop :=
  representable T p /\ x = if isigned T then p else signed_value (iwidth T) p.

(* x is a number that a type of the width of T can hold in two's complement *)
Definition fits (T : ity) (x : Z) : Prop := - 2 ^ (iwidth T - 1) <= x < 2 ^ (iwidth T - 1).

Lemma rep_in_range t v : representable t v -> in_range t v.
Proof. unfold representable, in_range, imin, imax. destruct (isigned t); lia. Qed.

Lemma rep_in_rangeb t v : in_rangeb t v = true <-> representable t v.
Proof. unfold representable, in_rangeb, imin, imax. destruct (isigned t); lia. Qed.

Lemma fitsb_fits T v : fitsb (iwidth T) v = true <-> fits T v.
Proof. unfold fitsb, fits. lia. Qed.

Lemma wrap_denotes T v : ity_ok T -> fits T v -> denotes T (wrap T v) v.
Proof.
  intros HT Hv. pose proof (ity_ok_width T HT) as Hw. unfold fits in Hv. unfold denotes, representable.
  destruct (isigned T) eqn:ST.
  - rewrite wrap_id; [lia|assumption|]. unfold in_range, imin, imax. rewrite ST. lia.
  - unfold wrap. rewrite ST. assert (0 < 2 ^ iwidth T) by (apply Z.pow_pos_nonneg; lia).
    split; [apply Z.mod_pos_bound; assumption|]. symmetry. apply signed_value_of_mod; assumption.
Qed.

(* --- C158 ----------------------------------------------------------------------- *)

(* For all integer types F and T and all values of F: nothing overflows;
   can_cast_to_twos_compl() says whether the value can be held in two's complement of the
   width of T; if so, try_cast_to_twos_compl() stores the pattern that denotes it, and
   otherwise it leaves the destination alone, and cast_to_twos_compl() throws. *)
Theorem cast_to_twos_compl_exact : forall T F from old, ity_ok T -> ity_ok F ->
  representable F from ->
  exists can, can_cast_to_twos_compl T F from = Some can /\ (can = true <-> fits T from) /\
    exists ok to, try_cast_to_twos_compl T F from old = Some (ok, to) /\ ok = can /\
      (if can then denotes T to from else to = old) /\
      exists r, cast_to_twos_compl T F from = Some r /\
        match r with Some p => can = true /\ denotes T p from | None => can = false end.
Proof.
  intros T F from old HT HF Hf. apply rep_in_range in Hf.
  unfold cast_to_twos_compl, try_cast_to_twos_compl. rewrite can_cast_to_spec by assumption.
  cbn [obind]. eexists. split; [reflexivity|]. split; [apply fitsb_fits|].
  destruct (fitsb (iwidth T) from) eqn:E.
  - eexists _, _. split; [reflexivity|]. split; [reflexivity|].
    apply fitsb_fits in E. split; [apply wrap_denotes; assumption|]. cbn [obind fst snd].
    eexists. split; [reflexivity|]. cbv iota. split; [reflexivity|]. apply wrap_denotes; assumption.
  - eexists _, _. split; [reflexivity|]. split; [reflexivity|]. split; [reflexivity|].
    cbn [obind fst snd]. eexists. split; reflexivity.
Qed.

Example cast_to_twos_compl_ex :
  try_cast_to_twos_compl u8 i64 (-128) 7 = Some (true, 128) /\
  try_cast_to_twos_compl u8 i64 (-129) 7 = Some (false, 7) /\
  try_cast_to_twos_compl u64 i8 (-1) 7 = Some (true, 2 ^ 64 - 1) /\
  try_cast_to_twos_compl u8 u64 128 7 = Some (false, 7) /\
  try_cast_to_twos_compl u64 i64 (- 2 ^ 63) 7 = Some (true, 2 ^ 63).
Proof. vm_compute. auto 10. Qed.

(* --- C159 ----------------------------------------------------------------------- *)

(* For all integer types F and T and all patterns of F: nothing overflows;
   can_cast_from_twos_compl() says whether the number that the pattern denotes is
   representable in T; if so, try_cast_from_twos_compl() stores that number, and otherwise it
   leaves the destination alone, and cast_from_twos_compl() throws. *)
Theorem cast_from_twos_compl_exact : forall T F from old x, ity_ok T -> ity_ok F ->
  denotes F from x ->
  exists can, can_cast_from_twos_compl T F from = Some can /\ (can = true <-> representable T x) /\
    checked_outcome T old x (try_cast_from_twos_compl T F from old) /\
    exists r, cast_from_twos_compl T F from = Some r /\
      match r with Some p => representable T x /\ p = x | None => ~ representable T x end.
Proof.
  intros T F from old x HT HF [Hf Hx]. apply rep_in_range in Hf.
  fold (from_value F from) in Hx. subst x.
  unfold cast_from_twos_compl. rewrite can_cast_from_spec, !try_cast_from_spec by assumption.
  eexists. split; [reflexivity|]. split; [apply rep_in_rangeb|].
  cbn [obind]. unfold checked_outcome.
  destruct (in_rangeb T (from_value F from)) eqn:E.
  - apply rep_in_rangeb in E. split; [left; auto|]. eexists. split; [reflexivity|]. cbn [fst snd]. auto.
  - assert (N : ~ representable T (from_value F from)) by (rewrite <- rep_in_rangeb; congruence).
    split; [right; auto|]. eexists. split; [reflexivity|]. assumption.
Qed.

Example cast_from_twos_compl_ex :
  denotes u16 65408 (-128) /\
  try_cast_from_twos_compl i8 u16 65408 7 = Some (true, -128) /\
  try_cast_from_twos_compl i8 u16 65407 7 = Some (false, 7) /\
  try_cast_from_twos_compl u64 u8 255 7 = Some (false, 7) /\
  try_cast_from_twos_compl u8 u64 127 7 = Some (true, 127) /\
  try_cast_from_twos_compl i64 u64 (2 ^ 63) 7 = Some (true, - 2 ^ 63).
Proof. vm_compute. intuition discriminate. Qed.

(* --- C160 ----------------------------------------------------------------------- *)

(* Full statement: for all integer types T and F, try_twos_compl_cast() succeeds exactly if
   the number that the source denotes fits into the width of T, and then stores the pattern
   that denotes the same number.  False for two unsigned types of which the source is
   narrower than int and the destination narrower still (C08).  It holds in all other
   cases. *)
Definition value_preserving (T F : ity) (from old : Z) (res : option (bool * Z)) : Prop :=
  forall x, denotes F from x ->
  (fits T x /\ exists p, res = Some (true, p) /\ denotes T p x) \/
  (~ fits T x /\ res = Some (false, old)).

Theorem try_twos_compl_cast_partial : forall T F from old, ity_ok T -> ity_ok F ->
  representable F from ->
  isigned T = true \/ isigned F = true \/ 32 <= iwidth F \/ iwidth F <= iwidth T ->
  value_preserving T F from old (try_twos_compl_cast T F from old).
Proof.
  intros T F from old HT HF Hf Hcase x [_ Hx]. unfold try_twos_compl_cast.
  destruct (isigned T) eqn:ST; cbn [negb andb].
  - assert (Hfits : forall y, representable T y <-> fits T y).
    { intros y. unfold representable, fits. rewrite ST. reflexivity. }
    assert (Hd : representable T x -> denotes T x x).
    { intros H. unfold denotes. rewrite ST. auto. }
    destruct (isigned F) eqn:SF; cbn [negb].
    + subst x. rewrite try_int_cast_spec by auto using rep_in_range.
      destruct (in_rangeb T from) eqn:E.
      * apply rep_in_rangeb in E. left. rewrite <- Hfits. split; [assumption|].
        eexists. split; [reflexivity|]. auto.
      * right. rewrite <- Hfits, <- rep_in_rangeb. split; [congruence|reflexivity].
    + destruct (cast_from_twos_compl_exact T F from old x HT HF) as (can & _ & _ & Hc & _).
      { unfold denotes. rewrite SF. auto. }
      destruct Hc as [(H & E)|(H & E)].
      * left. rewrite <- Hfits. split; [assumption|]. eexists. split; [eassumption|]. auto.
      * right. rewrite <- Hfits. auto.
  - destruct (isigned F) eqn:SF; cbn [negb].
    + destruct (cast_to_twos_compl_exact T F from old HT HF Hf) as (can & _ & Hcan & ok & to & E & -> & Hto & _).
      subst x. destruct can.
      * left. split; [now apply Hcan|]. eexists. split; [eassumption|]. assumption.
      * right. split; [|subst; assumption]. intros H. apply Hcan in H. discriminate.
    + destruct (twos_compl_cast_partial T F from old HT HF ST SF Hf) as [(H & p & E & Hp & Hs)|(H & E)].
      { destruct Hcase as [K|[K|K]]; [congruence|congruence|assumption]. }
      * left. subst x. split; [assumption|]. exists p. split; [assumption|].
        unfold denotes, representable. rewrite ST. auto.
      * right. subst x. split; assumption.
Qed.

Theorem try_twos_compl_cast_refuted : exists T F from old, ity_ok T /\ ity_ok F /\
  representable F from /\ ~ value_preserving T F from old (try_twos_compl_cast T F from old).
Proof.
  exists u8, u16, 65535, 0. split; [cbv; discriminate|]. split; [cbv; discriminate|].
  split; [cbv; intuition discriminate|]. intros H.
  destruct (H (-1)) as [(_ & p & E & _)|(K & _)].
  - vm_compute. intuition discriminate.
  - vm_compute in E. discriminate.
  - apply K. vm_compute. intuition discriminate.
Qed.

Example try_twos_compl_cast_ex :
  try_twos_compl_cast i8 u16 65535 7 = Some (true, -1) /\
  try_twos_compl_cast u8 i16 (-1) 7 = Some (true, 255) /\
  try_twos_compl_cast u8 u32 (2 ^ 32 - 1) 7 = Some (true, 255) /\
  try_twos_compl_cast i8 i16 (-129) 7 = Some (false, 7).
Proof. vm_compute. auto 10. Qed.

Print Assumptions cast_to_twos_compl_exact.
Print Assumptions cast_from_twos_compl_exact.
Print Assumptions try_twos_compl_cast_partial.
Print Assumptions try_twos_compl_cast_refuted.
