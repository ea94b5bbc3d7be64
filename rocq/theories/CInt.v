(* Semantics of C++20 builtin integer arithmetic, as used by every other model
   file.  Not code of /repo: this is the language-level substrate.

   A builtin integer type is a width and a signedness; `bool` is not covered.
   `int` is 32 bits wide (fixed, as on all platforms archon supports).
   Two integer types of the same width and signedness (e.g. long / long long)
   are identified.  Signed overflow, division by zero and over-wide shifts give
   the distinct outcome None. *)

From Coq Require Import ZArith Lia Bool List ZifyBool.
Import ListNotations.
Open Scope Z_scope.

Record ity := ITy { iwidth : Z; isigned : bool }.

(* a type that exists in C++: at least one value bit *)
Definition ity_ok (t : ity) : Prop :=
  if isigned t then 2 <= iwidth t else 1 <= iwidth t.

Definition t_int : ity := ITy 32 true.
Definition t_uint : ity := ITy 32 false.

Definition imin (t : ity) : Z := if isigned t then - 2 ^ (iwidth t - 1) else 0.
Definition imax (t : ity) : Z :=
  if isigned t then 2 ^ (iwidth t - 1) - 1 else 2 ^ iwidth t - 1.

Definition in_range (t : ity) (v : Z) : Prop := imin t <= v <= imax t.
Definition in_rangeb (t : ity) (v : Z) : bool := (imin t <=? v) && (v <=? imax t).

(* Conversion to type t (C++20 [conv.integral]: reduction modulo 2^width) *)
Definition wrap (t : ity) (v : Z) : Z :=
  if isigned t then (v + 2 ^ (iwidth t - 1)) mod 2 ^ iwidth t - 2 ^ (iwidth t - 1)
  else v mod 2 ^ iwidth t.

(* Integral promotion [conv.prom] *)
Definition promo (t : ity) : ity := if iwidth t <? 32 then t_int else t.

(* Usual arithmetic conversions [expr.arith.conv]; rank is determined by width *)
Definition uac (t1 t2 : ity) : ity :=
  let p := promo t1 in
  let q := promo t2 in
  if Bool.eqb (isigned p) (isigned q) then (if iwidth q <=? iwidth p then p else q)
  else if isigned p then (if iwidth q <? iwidth p then p else q)
  else (if iwidth p <? iwidth q then q else p).

(* Typed values *)
Definition tv : Type := (ity * Z)%type.

(* result of an arithmetic operation carried out in type t *)
Definition norm (t : ity) (z : Z) : option tv :=
  if isigned t then (if in_rangeb t z then Some (t, z) else None)
  else Some (t, wrap t z).

Definition cbin (f : Z -> Z -> Z) (a b : tv) : option tv :=
  let t := uac (fst a) (fst b) in
  norm t (f (wrap t (snd a)) (wrap t (snd b))).

Definition cadd := cbin Z.add.
Definition csub := cbin Z.sub.
Definition cmul := cbin Z.mul.

(* / and % [expr.mul]: truncated; division by zero and unrepresentable quotient
   are undefined *)
Definition cdiv (a b : tv) : option tv :=
  let t := uac (fst a) (fst b) in
  let x := wrap t (snd a) in
  let y := wrap t (snd b) in
  if y =? 0 then None else norm t (Z.quot x y).
Definition crem (a b : tv) : option tv :=
  let t := uac (fst a) (fst b) in
  let x := wrap t (snd a) in
  let y := wrap t (snd b) in
  if y =? 0 then None
  else match norm t (Z.quot x y) with
       | None => None
       | Some _ => Some (t, Z.rem x y)
       end.

Definition cand (a b : tv) : tv :=
  let t := uac (fst a) (fst b) in (t, wrap t (Z.land (wrap t (snd a)) (wrap t (snd b)))).
Definition cor (a b : tv) : tv :=
  let t := uac (fst a) (fst b) in (t, wrap t (Z.lor (wrap t (snd a)) (wrap t (snd b)))).

Definition cneg (a : tv) : option tv :=
  let t := promo (fst a) in norm t (- snd a).
Definition cnot (a : tv) : tv :=
  let t := promo (fst a) in (t, wrap t (Z.lnot (snd a))).

(* shifts [expr.shift] (C++20): the type is that of the promoted left operand;
   left shift of a signed operand is modular *)
Definition cshl (a : tv) (n : Z) : option tv :=
  let t := promo (fst a) in
  if (0 <=? n) && (n <? iwidth t) then Some (t, wrap t (Z.shiftl (snd a) n)) else None.
Definition cshr (a : tv) (n : Z) : option tv :=
  let t := promo (fst a) in
  if (0 <=? n) && (n <? iwidth t) then Some (t, Z.shiftr (snd a) n) else None.

Definition crel (f : Z -> Z -> bool) (a b : tv) : bool :=
  let t := uac (fst a) (fst b) in f (wrap t (snd a)) (wrap t (snd b)).
Definition clt := crel Z.ltb.
Definition cle := crel Z.leb.
Definition cgt := crel Z.gtb.
Definition cge := crel Z.geb.
Definition ceq := crel Z.eqb.

Definition obind {A B} (m : option A) (k : A -> option B) : option B :=
  match m with None => None | Some a => k a end.
Notation "'let*' x := m 'in' k" := (obind m (fun x => k))
  (at level 200, x name, m at level 100, k at level 200, right associativity).

(* ------------------------------------------------------------------ *)
(* Lemmas *)

Lemma pow2_pos w : 0 < 2 ^ w \/ w < 0.
Proof. destruct (Z.ltb_spec w 0); [right|left]; lia. Qed.

Lemma pow2_split w : 1 <= w -> 2 ^ w = 2 * 2 ^ (w - 1).
Proof. intros. rewrite <- Z.pow_succ_r by lia. f_equal. lia. Qed.

Lemma ity_ok_width t : ity_ok t -> 1 <= iwidth t.
Proof. unfold ity_ok. destruct (isigned t); lia. Qed.

Lemma in_rangeb_spec t v : in_rangeb t v = true <-> in_range t v.
Proof. unfold in_rangeb, in_range. lia. Qed.

Lemma in_rangeb_false t v : in_rangeb t v = false <-> ~ in_range t v.
Proof. unfold in_rangeb, in_range. lia. Qed.

Lemma wrap_id t v : ity_ok t -> in_range t v -> wrap t v = v.
Proof.
  intros Ht Hv. pose proof (ity_ok_width _ Ht) as Hw.
  pose proof (pow2_split _ Hw). unfold wrap, in_range, imin, imax in *.
  destruct (isigned t).
  - rewrite Z.mod_small; lia.
  - rewrite Z.mod_small; lia.
Qed.

Lemma wrap_range t v : ity_ok t -> in_range t (wrap t v).
Proof.
  intros Ht. pose proof (ity_ok_width _ Ht) as Hw.
  pose proof (pow2_split _ Hw).
  assert (0 < 2 ^ iwidth t) by (apply Z.pow_pos_nonneg; lia).
  unfold wrap, in_range, imin, imax.
  pose proof (Z.mod_pos_bound (v + 2 ^ (iwidth t - 1)) (2 ^ iwidth t)).
  pose proof (Z.mod_pos_bound v (2 ^ iwidth t)).
  destruct (isigned t); lia.
Qed.

Lemma wrap_cong t v : ity_ok t -> exists k, wrap t v = v + k * 2 ^ iwidth t.
Proof.
  intros Ht. pose proof (ity_ok_width _ Ht) as Hw.
  assert (0 < 2 ^ iwidth t) by (apply Z.pow_pos_nonneg; lia).
  unfold wrap. destruct (isigned t).
  - exists (- ((v + 2 ^ (iwidth t - 1)) / 2 ^ iwidth t)).
    rewrite Z.mod_eq by lia. lia.
  - exists (- (v / 2 ^ iwidth t)). rewrite Z.mod_eq by lia. lia.
Qed.

(* two values congruent modulo 2^width convert to the same value *)
Lemma wrap_of_cong t x y k : ity_ok t -> x = y + k * 2 ^ iwidth t -> wrap t x = wrap t y.
Proof.
  intros Ht ->. pose proof (ity_ok_width _ Ht) as Hw.
  assert (0 < 2 ^ iwidth t) by (apply Z.pow_pos_nonneg; lia).
  unfold wrap. destruct (isigned t).
  - replace (y + k * 2 ^ iwidth t + 2 ^ (iwidth t - 1))
      with (y + 2 ^ (iwidth t - 1) + k * 2 ^ iwidth t) by lia.
    rewrite Z.mod_add by lia. reflexivity.
  - rewrite Z.mod_add by lia. reflexivity.
Qed.

Lemma wrap_eq_of_cong t x y k :
  ity_ok t -> in_range t y -> x = y + k * 2 ^ iwidth t -> wrap t x = y.
Proof.
  intros Ht Hy Hx. rewrite (wrap_of_cong t x y k Ht Hx). now apply wrap_id.
Qed.

Lemma pow2_divides a b : 0 <= a <= b -> exists k, 2 ^ b = k * 2 ^ a.
Proof.
  intros. exists (2 ^ (b - a)). rewrite <- Z.pow_add_r by lia. f_equal. lia.
Qed.

(* narrowing after widening conversion *)
Lemma wrap_wrap t u v :
  ity_ok t -> ity_ok u -> iwidth t <= iwidth u -> wrap t (wrap u v) = wrap t v.
Proof.
  intros Ht Hu Hw. destruct (wrap_cong u v Hu) as [k Hk].
  pose proof (ity_ok_width _ Ht).
  destruct (pow2_divides (iwidth t) (iwidth u)) as [m Hm]; [lia|].
  apply (wrap_of_cong t _ v (k * m)); [assumption|]. rewrite Hk, Hm. lia.
Qed.

Lemma wrap_add t x y : ity_ok t -> wrap t (wrap t x + wrap t y) = wrap t (x + y).
Proof.
  intros Ht. destruct (wrap_cong t x Ht) as [k Hk]. destruct (wrap_cong t y Ht) as [m Hm].
  apply (wrap_of_cong t _ _ (k + m)); [assumption|]. rewrite Hk, Hm. lia.
Qed.

Lemma wrap_sub t x y : ity_ok t -> wrap t (wrap t x - wrap t y) = wrap t (x - y).
Proof.
  intros Ht. destruct (wrap_cong t x Ht) as [k Hk]. destruct (wrap_cong t y Ht) as [m Hm].
  apply (wrap_of_cong t _ _ (k - m)); [assumption|]. rewrite Hk, Hm. lia.
Qed.

Lemma wrap_mul t x y : ity_ok t -> wrap t (wrap t x * wrap t y) = wrap t (x * y).
Proof.
  intros Ht. destruct (wrap_cong t x Ht) as [k Hk]. destruct (wrap_cong t y Ht) as [m Hm].
  apply (wrap_of_cong t _ _ (x * m + y * k + k * m * 2 ^ iwidth t)); [assumption|].
  rewrite Hk, Hm. ring.
Qed.

Lemma in_range_promo t v : ity_ok t -> in_range t v -> in_range (promo t) v.
Proof.
  intros Ht. pose proof (ity_ok_width _ Ht). unfold promo.
  destruct (Z.ltb_spec (iwidth t) 32); [|auto].
  unfold in_range, imin, imax; cbn [isigned iwidth t_int].
  assert (2 ^ (iwidth t - 1) <= 2 ^ 31) by (apply Z.pow_le_mono_r; lia).
  assert (2 ^ iwidth t <= 2 ^ 31) by (apply Z.pow_le_mono_r; lia).
  change (2 ^ (32 - 1)) with (2 ^ 31).
  destruct (isigned t); lia.
Qed.

Lemma promo_ok t : ity_ok t -> ity_ok (promo t).
Proof.
  intros. unfold promo. destruct (Z.ltb_spec (iwidth t) 32); [|assumption].
  unfold ity_ok, t_int; cbn. lia.
Qed.

Lemma promo_wide t : 32 <= iwidth t -> promo t = t.
Proof. intros. unfold promo. destruct (Z.ltb_spec (iwidth t) 32); [lia|reflexivity]. Qed.

Lemma promo_width t : 32 <= iwidth (promo t).
Proof. unfold promo. destruct (Z.ltb_spec (iwidth t) 32); cbn; lia. Qed.

Lemma promo_width_ge t : iwidth t <= iwidth (promo t).
Proof. unfold promo. destruct (Z.ltb_spec (iwidth t) 32); cbn; lia. Qed.

Lemma promo_idem t : promo (promo t) = promo t.
Proof. apply promo_wide, promo_width. Qed.

Lemma uac_same t : uac t t = promo t.
Proof.
  unfold uac. rewrite Bool.eqb_reflx.
  destruct (Z.leb_spec (iwidth (promo t)) (iwidth (promo t))); [reflexivity|lia].
Qed.

Lemma uac_ok t u : ity_ok t -> ity_ok u -> ity_ok (uac t u).
Proof.
  intros Ht Hu. apply promo_ok in Ht, Hu. unfold uac.
  repeat match goal with |- context [if ?b then _ else _] => destruct b end; assumption.
Qed.

Lemma imax_mono t u : isigned t = isigned u -> 1 <= iwidth t <= iwidth u -> imax t <= imax u.
Proof.
  unfold imax. intros <- ?. 
  assert (2 ^ (iwidth t - 1) <= 2 ^ (iwidth u - 1)) by (apply Z.pow_le_mono_r; lia).
  assert (2 ^ (iwidth t) <= 2 ^ (iwidth u)) by (apply Z.pow_le_mono_r; lia).
  destruct (isigned t); lia.
Qed.

Lemma in_range_0 t : ity_ok t -> in_range t 0.
Proof.
  intros Ht. pose proof (ity_ok_width _ Ht).
  assert (0 < 2 ^ iwidth t) by (apply Z.pow_pos_nonneg; lia).
  assert (0 < 2 ^ (iwidth t - 1)) by (apply Z.pow_pos_nonneg; lia).
  unfold in_range, imin, imax. destruct (isigned t); lia.
Qed.

Lemma imin_range t : ity_ok t -> in_range t (imin t).
Proof. intros Ht. pose proof (in_range_0 t Ht). unfold in_range in *. lia. Qed.
Lemma imax_range t : ity_ok t -> in_range t (imax t).
Proof. intros Ht. pose proof (in_range_0 t Ht). unfold in_range in *. lia. Qed.
