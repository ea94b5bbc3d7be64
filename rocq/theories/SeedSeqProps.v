(* Theorems about SeedSeq. *)
From Coq Require Import ZArith List Lia.
From Verif Require Import SeedSeqModel SeedSeqSpec SeedSeqProofs.
Import ListNotations.
Open Scope Z_scope.

(* C133: the generated values are those that std::seed_seq would generate from the
   concatenation of the segments.  The bound says that the words (at least 4 bytes each) fit
   in the address space. *)
Theorem seed_seq_generate_standard w sw segs num : 32 <= w ->
  4 * (Z.of_nat (length (concat segs)) + Z.of_nat num) <= 2 ^ sw ->
  generate w sw segs num = Some (std_generate (concat segs) num).
Proof. exact (generate_ok w sw segs num). Qed.
Example seed_seq_generate_case :
  32 <= 32 /\ 4 * (Z.of_nat (length (concat [[1; 2]; []; [3; 4; 5]])) + Z.of_nat 10) <= 2 ^ 64 /\
  generate 32 64 [[1; 2]; []; [3; 4; 5]] 10 =
    Some [4204997637; 4246533866; 1856049002; 1129615051; 690460811; 1075771511; 46783058; 3904109078; 1534123438; 1495905678].
Proof. split; [lia|]. split; [vm_compute; discriminate|vm_compute; reflexivity]. Qed.

(* C134: the size is the total number of words, and summing up the sizes fails exactly if that
   is not a value of std::size_t; param() gives all words in order *)
Theorem seed_seq_size_param sw segs : 0 <= sw ->
  (forall n, size sw segs = Some n <-> n = Z.of_nat (length (concat segs)) /\ n < 2 ^ sw) /\
  param segs = concat segs.
Proof.
  intros Hsw. split; [|apply param_concat].
  assert (G : forall s0 n, 0 <= s0 < 2 ^ sw ->
    (add_sizes sw s0 segs = Some n <-> n = s0 + Z.of_nat (length (concat segs)) /\ n < 2 ^ sw)).
  { induction segs as [|seg segs IH]; intros s0 n H0; cbn [add_sizes concat].
    - cbn [length]. rewrite Z.add_0_r. split; [intros H; injection H as <-; lia|intros (-> & _); reflexivity].
    - rewrite app_length, Nat2Z.inj_add. destruct (Z.ltb_spec (s0 + Z.of_nat (length seg)) (2 ^ sw)) as [X|X].
      + rewrite IH by lia. rewrite Z.add_assoc. reflexivity.
      + split; [discriminate|lia]. }
  intros n. apply (G 0). pose proof (Z.pow_pos_nonneg 2 sw ltac:(lia) Hsw). lia.
Qed.
Example seed_seq_size_case :
  size 64 [[1; 2]; []; [3; 4; 5]] = Some 5 /\ size 2 [[1; 2]; []; [3; 4; 5]] = None /\
  param [[1; 2]; []; [3; 4; 5]] = [1; 2; 3; 4; 5].
Proof. repeat split. Qed.

Print Assumptions seed_seq_generate_standard.
Print Assumptions seed_seq_size_param.
