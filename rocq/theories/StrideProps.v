(* C216, C217: arithmetic of stride iterators *)
From Coq Require Import ZArith Bool List Lia.
From Verif Require Import StrideModel ArrLib.
Import ListNotations.
Local Open Scope Z_scope.

(* an array of a size that is possible, a stride, and an iterator by its number counted from a position *)
Definition dims (len S : Z) : Prop := 0 <= len < 2 ^ 63 /\ 0 < S < 2 ^ 63.
Definition in_array (len pos : Z) : Prop := 0 <= pos <= len.

Lemma size_mul : forall i S, to_size (to_size i * S) = (i * S) mod 2 ^ 64.
Proof. intros i S. unfold to_size. apply Z.mul_mod_idemp_l. lia. Qed.

Lemma size_small : forall x, 0 <= x < 2 ^ 63 -> x mod 2 ^ 64 = x.
Proof. intros x H. apply Z.mod_small. lia. Qed.

Lemma diff_size : forall x, - 2 ^ 63 <= x < 2 ^ 63 -> to_diff (x mod 2 ^ 64) = x.
Proof.
  intros x H. unfold to_diff. destruct (Z.lt_ge_cases x 0) as [N|N].
  - assert (E : x mod 2 ^ 64 = x + 2 ^ 64).
    { symmetry. apply Z.mod_unique with (q := -1); lia. }
    rewrite E. destruct (Z.ltb_spec (x + 2 ^ 64) (2 ^ 63)); lia.
  - rewrite size_small by lia. destruct (Z.ltb_spec x (2 ^ 63)); lia.
Qed.

Lemma operand_right : forall kd x, - 2 ^ 63 <= x < 2 ^ 63 -> kd = Class \/ 0 <= x -> operand kd (x mod 2 ^ 64) = x.
Proof.
  intros [|] x H K; cbn [operand].
  - apply size_small. destruct K as [K|K]; [discriminate|lia].
  - apply diff_size, H.
Qed.

Lemma check_right : forall len pos, in_array len pos -> check len pos = Some pos.
Proof.
  intros len pos [A B]. unfold check. destruct (Z.leb_spec 0 pos), (Z.leb_spec pos len); try lia. reflexivity.
Qed.

(* C216, full statement: as stride_move_partial, but without the condition that the underlying iterator is not a pointer or
   that the number of steps is not negative.  Iterator number k, counted from base, moved by i steps is number k + i. *)
Theorem stride_move_partial : forall kd len S base k i, dims len S ->
  in_array len (base + k * S) -> in_array len (base + (k + i) * S) -> kd = Class \/ 0 <= i ->
  stride_add kd len S (base + k * S) i = Some (base + (k + i) * S) /\
  stride_sub kd len S (base + (k + i) * S) i = Some (base + k * S) /\
  (base + (k + i) * S < len -> stride_at kd len S (base + k * S) i = Some (base + (k + i) * S)) /\
  (i = 1 -> stride_inc kd len S (base + k * S) = Some (base + (k + i) * S) /\
            stride_dec kd len S (base + (k + i) * S) = Some (base + k * S)).
Proof.
  intros kd len S base k i [L P] A B K.
  assert (R : - 2 ^ 63 <= i * S < 2 ^ 63) by (unfold in_array in *; nia).
  assert (O : operand kd ((i * S) mod 2 ^ 64) = i * S).
  { apply operand_right; [exact R|]. destruct K; [left; assumption|right; nia]. }
  assert (X : base + k * S + i * S = base + (k + i) * S) by ring.
  assert (Y : base + (k + i) * S - i * S = base + k * S) by ring.
  unfold stride_add, stride_sub, stride_at, iter_add, iter_sub. rewrite size_mul, O, X, Y.
  rewrite !check_right by assumption. split; [reflexivity|]. split; [reflexivity|]. split.
  - intros H. cbn [obind]. destruct (Z.ltb_spec (base + (k + i) * S) len); [reflexivity|lia].
  - intros ->. unfold stride_inc, stride_dec, iter_add, iter_sub.
    assert (O1 : operand kd S = S).
    { rewrite <- (size_small S) at 1 by lia. apply operand_right; lia. }
    rewrite O1. replace (base + k * S + S) with (base + (k + 1) * S) by ring.
    replace (base + (k + 1) * S - S) with (base + k * S) by ring. rewrite !check_right by assumption. auto.
Qed.

(* moving a pointer by a negative number of steps *)
Theorem stride_move_refuted : forall len S base k i, dims len S -> in_array len (base + k * S) ->
  in_array len (base + (k + i) * S) -> i < 0 -> stride_add Pointer len S (base + k * S) i = None.
Proof.
  intros len S base k i [L P] A B N. unfold stride_add, iter_add. rewrite size_mul. cbn [operand]. unfold in_array in *.
  assert (E : (i * S) mod 2 ^ 64 = i * S + 2 ^ 64).
  { symmetry. apply Z.mod_unique with (q := -1); [left; nia|lia]. }
  rewrite E. unfold check. destruct (Z.leb_spec (base + k * S + (i * S + 2 ^ 64)) len); [nia|]. rewrite andb_false_r.
  reflexivity.
Qed.

Example stride_move_case : dims 20 3 /\ in_array 20 (2 + 1 * 3) /\ in_array 20 (2 + (1 + 4) * 3) /\
  stride_add Pointer 20 3 5 4 = Some 17 /\ stride_add Class 20 3 17 (-4) = Some 5 /\ stride_add Pointer 20 3 17 (-4) = None /\
  stride_at Pointer 20 3 5 4 = Some 17 /\ stride_inc Pointer 20 3 5 = Some 8.
Proof. unfold dims, in_array. repeat split; try lia; vm_compute; reflexivity. Qed.

(* C217, full statement: as stride_diff_partial, but without the condition that j is at least k or S is 1.  The difference
   between iterators number j and k is j - k, and they compare as their numbers do. *)
Theorem stride_diff_partial : forall len S base j k, dims len S ->
  in_array len (base + j * S) -> in_array len (base + k * S) ->
  (k <= j \/ S = 1 -> stride_diff S (base + j * S) (base + k * S) = j - k) /\
  (stride_eq (base + j * S) (base + k * S) = true <-> j = k) /\
  (stride_less (base + j * S) (base + k * S) = true <-> j < k).
Proof.
  intros len S base j k [L P] A B. unfold in_array in *. split; [|split].
  - intros H. unfold stride_diff, to_size. replace (base + j * S - (base + k * S)) with ((j - k) * S) by ring.
    destruct H as [H|H].
    + rewrite size_small by nia. rewrite Z.div_mul by lia. unfold to_diff.
      destruct (Z.ltb_spec (j - k) (2 ^ 63)); [reflexivity|nia].
    + subst S. rewrite Z.div_1_r, Z.mul_1_r. apply diff_size. lia.
  - unfold stride_eq. rewrite Z.eqb_eq. nia.
  - unfold stride_less. rewrite Z.ltb_lt. nia.
Qed.

(* the difference is wrong whenever it is negative and the stride is more than one: it comes out as positive *)
Theorem stride_diff_refuted : forall len S base j k, dims len S -> 1 < S ->
  in_array len (base + j * S) -> in_array len (base + k * S) -> j < k ->
  0 <= stride_diff S (base + j * S) (base + k * S).
Proof.
  intros len S base j k [L P] H A B N. unfold in_array, stride_diff, to_size in *.
  replace (base + j * S - (base + k * S)) with ((j - k) * S) by ring.
  pose proof (Z.mod_pos_bound ((j - k) * S) (2 ^ 64) ltac:(lia)) as M. set (x := ((j - k) * S) mod 2 ^ 64) in *.
  assert (D : 0 <= x / S < 2 ^ 63).
  { split; [apply Z.div_pos; lia|]. apply Z.div_lt_upper_bound; [lia|]. nia. }
  unfold to_diff. destruct (Z.ltb_spec (x / S) (2 ^ 63)); lia.
Qed.

Example stride_diff_case : dims 20 3 /\ in_array 20 (2 + 5 * 3) /\ in_array 20 (2 + 1 * 3) /\
  stride_diff 3 17 5 = 4 /\ stride_diff 3 5 17 = 6148914691236517201 /\ stride_less 5 17 = true.
Proof. unfold dims, in_array. repeat split; try lia; vm_compute; reflexivity. Qed.

Print Assumptions stride_move_partial.
Print Assumptions stride_move_refuted.
Print Assumptions stride_diff_partial.
Print Assumptions stride_diff_refuted.
