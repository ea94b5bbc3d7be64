(* C219, C220: image blocks *)
From Coq Require Import ZArith Bool List Lia.
From Verif Require Import CInt IntModel IntSpec IntProps BlockModel ArrLib.
Import ListNotations.
Local Open Scope Z_scope.

(* values of type int *)
Definition is_int (x : Z) : Prop := - 2 ^ 31 <= x < 2 ^ 31.

Lemma int_mul_right : forall l r, - 2 ^ 63 <= l < 2 ^ 63 -> is_int r ->
  (- 2 ^ 63 <= l * r < 2 ^ 63 /\ int_mul l r = Ok (l * r)) \/ (~ (- 2 ^ 63 <= l * r < 2 ^ 63) /\ int_mul l r = Overflow).
Proof.
  intros l r Hl Hr. unfold int_mul.
  destruct (checked_mul_exact t_diff t_int l r ltac:(cbv; discriminate) ltac:(cbv; discriminate) Hl Hr) as [(R & E)|(R & E)];
    rewrite E; [left|right]; split; try reflexivity; exact R.
Qed.

Lemma int_cast_right : forall v, - 2 ^ 63 <= v < 2 ^ 63 -> int_cast_size v = if 0 <=? v then Ok v else Overflow.
Proof.
  intros v H. unfold int_cast_size.
  destruct (checked_cast_exact t_size t_diff v 0 ltac:(cbv; discriminate) ltac:(cbv; discriminate) H) as ([(R & E)|(R & E)] & _);
    injection E as E; rewrite E; unfold representable in R; cbn [t_size isigned iwidth] in R;
    destruct (Z.leb_spec 0 v); try reflexivity; lia.
Qed.

Lemma determine_right : forall n w h, 0 < n -> is_int n -> is_int w -> is_int h ->
  determine_buffer_size n w h = if (0 <=? n * w * h) && (n * w * h <? 2 ^ 63) then Ok (n * w * h) else Overflow.
Proof.
  intros n w h N Hn Hw Hh. unfold determine_buffer_size.
  destruct (int_mul_right 1 n ltac:(lia) Hn) as [(R & E)|(R & E)]; [|unfold is_int in *; lia]. rewrite E. cbn [rbind].
  rewrite Z.mul_1_l. assert (B : - 2 ^ 63 <= n * w < 2 ^ 63) by (unfold is_int in *; nia).
  destruct (int_mul_right n w ltac:(unfold is_int in *; lia) Hw) as [(R2 & E2)|(R2 & E2)]; [|lia]. rewrite E2. cbn [rbind].
  destruct (int_mul_right (n * w) h B Hh) as [(R3 & E3)|(R3 & E3)]; rewrite E3; cbn [rbind].
  - rewrite int_cast_right by assumption. destruct (Z.leb_spec 0 (n * w * h)); cbn [andb]; [|reflexivity].
    destruct (Z.ltb_spec (n * w * h) (2 ^ 63)); [reflexivity|lia].
  - destruct (Z.leb_spec 0 (n * w * h)), (Z.ltb_spec (n * w * h) (2 ^ 63)); cbn [andb]; try reflexivity; lia.
Qed.

(* C219: construction of a block of valid size succeeds if, and only if the number of components is representable, and the
   buffer, when it is supplied, has room for them.  A buffer that is not supplied has exactly the right size. *)
Theorem block_construct : forall (A : Type) (zero : A) n w h (buffer : list A), 0 < n -> is_int n -> is_int w -> is_int h ->
  0 <= w -> 0 <= h ->
  (n * w * h < 2 ^ 63 -> exists b, block_new zero n w h = Ok b /\ m_width b = w /\ m_height b = h /\
    Z.of_nat (length (m_buffer b)) = n * w * h /\ (forall c, In c (m_buffer b) -> c = zero)) /\
  (2 ^ 63 <= n * w * h -> block_new zero n w h = Overflow /\ block_with n w h buffer = Overflow) /\
  (n * w * h < 2 ^ 63 -> n * w * h <= Z.of_nat (length buffer) -> block_with n w h buffer = Ok (Blk w h buffer)) /\
  (n * w * h < 2 ^ 63 -> Z.of_nat (length buffer) < n * w * h -> block_with n w h buffer = BufferTooSmall).
Proof.
  intros A zero n w h buffer N Hn Hw Hh W H. assert (P : 0 <= n * w * h) by (apply Z.mul_nonneg_nonneg; nia).
  unfold block_new, block_with, verify_buffer_size. rewrite determine_right by assumption.
  destruct (Z.leb_spec 0 (n * w * h)) as [_|?]; [|lia]. cbn [andb].
  destruct (Z.ltb_spec (n * w * h) (2 ^ 63)); cbn [rbind]; (split; [|split; [|split]]); intros; try lia.
  - eexists. split; [reflexivity|]. cbn [m_width m_height m_buffer]. rewrite repeat_length, Z2Nat.id by lia.
    repeat split. intros c I. apply repeat_spec in I. exact I.
  - destruct (Z.leb_spec (n * w * h) (Z.of_nat (length buffer))); [reflexivity|lia].
  - destruct (Z.leb_spec (n * w * h) (Z.of_nat (length buffer))); [lia|reflexivity].
  - auto.
Qed.

(* A size with one negative and one positive component is refused, but one with two negative components is not *)
Theorem block_negative : forall (A : Type) (zero : A) n w h, 0 < n -> is_int n -> is_int w -> is_int h ->
  (w < 0 < h \/ h < 0 < w -> block_new zero n w h = Overflow) /\
  (w < 0 -> h < 0 -> n * w * h < 2 ^ 63 -> exists b, block_new zero n w h = Ok b /\ m_width b = w /\ m_height b = h).
Proof.
  intros A zero n w h N Hn Hw Hh. unfold block_new. rewrite determine_right by assumption. split.
  - intros S. assert (n * w * h < 0).
    { rewrite <- Z.mul_assoc. apply Z.mul_pos_neg; [lia|]. nia. }
    destruct (Z.leb_spec 0 (n * w * h)); [lia|]. reflexivity.
  - intros W H F. assert (0 <= n * w * h).
    { rewrite <- Z.mul_assoc. apply Z.mul_nonneg_nonneg; nia. }
    destruct (Z.leb_spec 0 (n * w * h)), (Z.ltb_spec (n * w * h) (2 ^ 63)); try lia. cbn [andb rbind]. eexists. split; [reflexivity|].
    auto.
Qed.

Example block_construct_case : is_int 3 /\ is_int (2 ^ 31 - 1) /\ block_new 0 3 2 1 = Ok (Blk 2 1 [0; 0; 0; 0; 0; 0]) /\
  block_new 0 3 (2 ^ 31 - 1) (2 ^ 31 - 1) = Overflow /\ block_with 3 1 1 [7; 8] = BufferTooSmall /\
  block_with 3 1 1 [7; 8; 9; 10] = Ok (Blk 1 1 [7; 8; 9; 10]) /\ block_new 0 1 (-1) (-2) = Ok (Blk (-1) (-2) [0; 0]) /\
  block_new 0 1 (-1) 2 = Overflow.
Proof. unfold is_int. repeat split; try lia; vm_compute; reflexivity. Qed.

Lemma concat_item : forall (A : Type) n (items : list (list A)) rest k item, Forall (fun i => length i = n) items ->
  nth_error items k = Some item -> firstn n (skipn (k * n) (concat items ++ rest)) = item.
Proof.
  intros A n items rest k item F. revert k. induction F as [|i items Hi F IH]; intros [|k] E; try discriminate.
  - injection E as <-. cbn [Nat.mul skipn concat]. rewrite <- app_assoc, <- Hi, firstn_app, firstn_all, Nat.sub_diag.
    cbn [firstn]. apply app_nil_r.
  - cbn [Nat.mul concat]. rewrite <- app_assoc, skipn_app, Hi. rewrite skipn_all2 by lia.
    replace (n + k * n - n)%nat with (k * n)%nat by lia. exact (IH k E).
Qed.

(* C220: the components of a block are those of the items, in row-major order, and possibly some that are not used.  Each
   item can be fetched, without undefined behaviour. *)
Theorem block_get_pixel : forall (A : Type) n w h (buffer : list A) (b : block A) items rest x y item, 0 < n -> is_int n -> is_int w ->
  is_int h -> block_with n w h buffer = Ok b ->
  buffer = concat items ++ rest -> Forall (fun i => Z.of_nat (length i) = n) items ->
  0 <= x < w -> 0 <= y < h -> nth_error items (Z.to_nat (y * w + x)) = Some item ->
  get_pixel n b x y = Some item.
Proof.
  intros A n w h buffer b items rest x y item N Hn Hw Hh E EB F X Y G.
  unfold block_with, verify_buffer_size in E. rewrite determine_right in E by assumption.
  destruct (Z.leb_spec 0 (n * w * h)) as [P|P], (Z.ltb_spec (n * w * h) (2 ^ 63)) as [Q|Q]; try discriminate E. cbn [andb rbind] in E.
  destruct (Z.leb_spec (n * w * h) (Z.of_nat (length buffer))) as [B|B]; [|discriminate E]. injection E as <-.
  assert (X1 : 0 <= x * n) by nia. assert (X2 : (x + 1) * n <= w * n) by nia.
  assert (Y1 : 0 <= y * (w * n)) by (apply Z.mul_nonneg_nonneg; nia).
  assert (Y2 : (y + 1) * (w * n) <= n * w * h).
  { replace (n * w * h) with (h * (w * n)) by ring. apply Z.mul_le_mono_nonneg_r; nia. }
  assert (M : forall p q, 0 <= p * q < 2 ^ 63 -> mul p q = Some (p * q)).
  { intros p q R. unfold mul, in_rangeb. change (imin t_diff) with (- 2 ^ 63). change (imax t_diff) with (2 ^ 63 - 1).
    destruct (Z.leb_spec (- 2 ^ 63) (p * q)), (Z.leb_spec (p * q) (2 ^ 63 - 1)); try lia. reflexivity. }
  assert (V : forall p q, 0 <= p + q <= Z.of_nat (length buffer) -> move (Blk w h buffer) p q = Some (p + q)).
  { intros p q R. unfold move. cbn [m_buffer].
    destruct (Z.leb_spec 0 (p + q)), (Z.leb_spec (p + q) (Z.of_nat (length buffer))); try lia. reflexivity. }
  unfold get_pixel, make_tray. cbn [m_width]. rewrite M by lia. cbn [obind fst snd]. unfold iter_at.
  rewrite M by lia. cbn [obind]. rewrite V by lia. cbn [obind]. rewrite M by lia. cbn [obind]. rewrite V by lia. cbn [obind].
  rewrite V by lia. cbn [obind m_buffer]. f_equal. rewrite EB.
  replace (Z.to_nat (0 + x * n + y * (w * n))) with (Z.to_nat (y * w + x) * Z.to_nat n)%nat.
  - apply concat_item; [|exact G]. eapply Forall_impl; [|exact F]. cbn. lia.
  - rewrite <- Z2Nat.inj_mul by nia. f_equal. ring.
Qed.

(* every buffer that is accepted consists of items in that way *)
Theorem block_items : forall (A : Type) n w h (buffer : list A) b, 0 < n -> is_int n -> is_int w -> is_int h ->
  0 <= w -> 0 <= h -> block_with n w h buffer = Ok b ->
  exists items rest, buffer = concat items ++ rest /\ Forall (fun i => Z.of_nat (length i) = n) items /\
  Z.of_nat (length items) = w * h.
Proof.
  intros A n w h buffer b N Hn Hw Hh W H E.
  unfold block_with, verify_buffer_size in E. rewrite determine_right in E by assumption.
  destruct ((0 <=? n * w * h) && (n * w * h <? 2 ^ 63)); [|discriminate E]. cbn [rbind] in E.
  destruct (Z.leb_spec (n * w * h) (Z.of_nat (length buffer))) as [B|B]; [|discriminate E]. clear E.
  assert (S : forall k (l : list A), (k * Z.to_nat n <= length l)%nat -> exists items rest, l = concat items ++ rest /\
    Forall (fun i => Z.of_nat (length i) = n) items /\ length items = k).
  { induction k as [|k IH]; intros l K.
    - exists [], l. repeat split. constructor.
    - cbn [Nat.mul] in K. destruct (IH (skipn (Z.to_nat n) l)) as (items & rest & E1 & E2 & E3).
      { rewrite skipn_length. lia. }
      exists (firstn (Z.to_nat n) l :: items), rest. cbn [concat length]. rewrite <- app_assoc, <- E1, firstn_skipn, E3.
      repeat split. constructor; [|exact E2]. rewrite firstn_length. lia. }
  destruct (S (Z.to_nat (w * h)) buffer) as (items & rest & E1 & E2 & E3).
  - rewrite <- Z2Nat.inj_mul by nia. apply Nat2Z.inj_le. rewrite Z2Nat.id by (apply Z.mul_nonneg_nonneg; nia). lia.
  - exists items, rest. repeat split; try assumption. rewrite E3. apply Z2Nat.id. nia.
Qed.

Example block_get_pixel_case : exists b, block_with 2 2 2 (concat [[1; 2]; [3; 4]; [5; 6]; [7; 8]] ++ [9]) = Ok b /\
  nth_error [[1; 2]; [3; 4]; [5; 6]; [7; 8]] (Z.to_nat (1 * 2 + 0)) = Some [5; 6] /\ get_pixel 2 b 0 1 = Some [5; 6] /\
  get_pixel 2 b 1 2 = None.
Proof. eexists. split; [vm_compute; reflexivity|]. repeat split. Qed.

Print Assumptions block_construct.
Print Assumptions block_negative.
Print Assumptions block_get_pixel.
Print Assumptions block_items.
