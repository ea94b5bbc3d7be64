(* Theorems for C26 (append/prepend), C27 (at) and C28 (growth policy). *)
From Coq Require Import ZArith Lia Bool List ZifyBool.
From Verif Require Import BufferModel BufferProofs.
Import ListNotations.
Open Scope Z_scope.

Notation len l := (Z.of_nat (length l)).

(* ---- C28 ---- *)

Theorem growth_policy : forall W cur mn mx, 1 <= W ->
  0 <= cur <= mx -> 0 <= mn <= mx -> mx < 2 ^ W ->
  exists n, suggest_new_buffer_size W cur mn mx = Some n /\
    cur <= n /\ mn <= n /\ n <= mx /\ (mn <= cur -> n = cur) /\
    (cur < mn -> cur + cur / 2 <= n \/ n = mx).
Proof.
  intros W cur mn mx HW Hc Hm Hx.
  destruct (suggest_spec W cur mn mx) as (n & E & H1 & H2 & H3); [assumption..| |].
  - unfold size_max. lia.
  - exists n. split; [exact E|]. split; [lia|]. split; [lia|]. split; [lia|]. auto.
Qed.

Example growth_policy_ex :
  suggest_new_buffer_size 64 100 101 (2 ^ 64 - 1) = Some 150 /\
  suggest_new_buffer_size 64 (2 ^ 64 - 10) (2 ^ 64 - 5) (2 ^ 64 - 1) = Some (2 ^ 64 - 1) /\
  suggest_new_buffer_size 64 100 1000 1000 = Some 1000.
Proof. vm_compute. auto. Qed.

(* ---- C27 ---- *)

(* FINDING: verify_index compares with <=, so the index equal to the size is let
   through and the access is out of bounds (undefined behaviour). *)
Theorem buffer_at_refuted : forall (T : Type) (mem : list T), at_ mem (len mem) = UB.
Proof.
  intros T mem. unfold at_, bsize. replace (len mem <=? len mem) with true by lia.
  rewrite Nat2Z.id. destruct (nth_error mem (length mem)) eqn:E; [|reflexivity].
  assert (nth_error mem (length mem) <> None) by congruence. apply nth_error_Some in H. lia.
Qed.

(* every other index is handled correctly *)
Theorem buffer_at_partial : forall (T : Type) (mem : list T) i, i <> length mem ->
  at_ mem (Z.of_nat i) =
    match nth_error mem i with Some x => Done (Some x) | None => Throw None end.
Proof.
  intros T mem i Hi. unfold at_, bsize. rewrite Nat2Z.id.
  destruct (Z.leb_spec (Z.of_nat i) (len mem)).
  - destruct (nth_error mem i) eqn:E; [reflexivity|]. apply nth_error_None in E. lia.
  - destruct (nth_error mem i) eqn:E; [|reflexivity].
    assert (nth_error mem i <> None) by congruence. apply nth_error_Some in H0. lia.
Qed.

Example buffer_at_ex : at_ [10; 20; 30] 2 = Done (Some 30) /\ at_ [10; 20; 30] 4 = Throw None /\
  at_ [10; 20; 30] 3 = UB.
Proof. vm_compute. auto. Qed.

(* ---- C26 ---- *)

(* One append: with offset at most the size and a total that fits size_t, the first
   `offset` elements are kept, the data follows, the offset is advanced; memory beyond is
   untouched and the buffer keeps its size if there was room, and otherwise grows by half
   or more (unless limited by the maximum).  If the total does not fit, std::length_error
   is thrown and nothing changes. *)
Theorem buffer_append_exact : forall W (T : Type) (dflt : T) (mem data : list T) (off : nat),
  1 <= W -> (off <= length mem)%nat -> len mem < 2 ^ W -> len data < 2 ^ W ->
  (Z.of_nat off + len data < 2 ^ W ->
     exists mem', append W dflt mem data (Z.of_nat off) = Done (mem', Z.of_nat (off + length data)) /\
       firstn (off + length data) mem' = firstn off mem ++ data /\
       len mem' < 2 ^ W /\
       ((off + length data <= length mem)%nat ->
          length mem' = length mem /\ skipn (off + length data) mem' = skipn (off + length data) mem) /\
       ((length mem < off + length data)%nat ->
          (off + length data <= length mem')%nat /\
          (len mem + len mem / 2 <= len mem' \/ len mem' = 2 ^ W - 1))) /\
  (2 ^ W <= Z.of_nat off + len data ->
     append W dflt mem data (Z.of_nat off) = Throw (mem, Z.of_nat off)).
Proof.
  intros W T dflt mem data off HW Ho Hm Hd.
  destruct (append_gen W dflt mem data off Ho) as [H1 H2]; [unfold size_max; lia..|].
  unfold size_max in *. split; intros H.
  - destruct H1 as (m & E & Hf & Hl & H3 & H4); [lia|]. exists m.
    split; [exact E|]. split; [exact Hf|]. split; [lia|]. split; assumption.
  - apply H2. lia.
Qed.

Theorem buffer_append_a_exact : forall W (T : Type) (dflt : T) (mem : list T) v n (off : nat),
  (off <= length mem)%nat ->
  append_a W dflt mem v (Z.of_nat off) (Z.of_nat n) = append W dflt mem (repeat v n) (Z.of_nat off).
Proof. intros. now apply append_a_eq. Qed.

(* One prepend: the mirror image, counted from the end of the buffer. *)
Theorem buffer_prepend_exact : forall W (T : Type) (dflt : T) (mem data : list T) (used : nat),
  1 <= W -> (used <= length mem)%nat -> len mem < 2 ^ W -> len data < 2 ^ W ->
  (Z.of_nat used + len data < 2 ^ W ->
     exists mem', prepend W dflt mem data (len mem - Z.of_nat used) =
         Done (mem', len mem' - Z.of_nat (used + length data)) /\
       (used + length data <= length mem')%nat /\
       skipn (length mem' - (used + length data)) mem' = data ++ skipn (length mem - used) mem /\
       len mem' < 2 ^ W /\
       ((used + length data <= length mem)%nat ->
          length mem' = length mem /\
          firstn (length mem - (used + length data)) mem' = firstn (length mem - (used + length data)) mem) /\
       ((length mem < used + length data)%nat ->
          len mem + len mem / 2 <= len mem' \/ len mem' = 2 ^ W - 1)) /\
  (2 ^ W <= Z.of_nat used + len data ->
     prepend W dflt mem data (len mem - Z.of_nat used) = Throw (mem, len mem - Z.of_nat used)).
Proof.
  intros W T dflt mem data used HW Ho Hm Hd.
  destruct (prepend_gen W dflt mem data used Ho) as [H1 H2]; [unfold size_max; lia..|].
  unfold size_max in *. split; intros H.
  - destruct H1 as (m & E & Hu & Hf & Hl & H3 & H4); [lia|]. exists m.
    split; [exact E|]. split; [exact Hu|]. split; [exact Hf|]. split; [lia|]. split; assumption.
  - apply H2. lia.
Qed.

Theorem buffer_prepend_a_exact : forall W (T : Type) (dflt : T) (mem : list T) v n off,
  prepend_a W dflt mem v off (Z.of_nat n) = prepend W dflt mem (repeat v n) off.
Proof. intros. now apply prepend_a_eq. Qed.

(* Histories of appends (resp. prepends).  An exception ends the history. *)
Inductive bop (T : Type) := Data (l : list T) | Fill (v : T) (n : nat).
Arguments Data {T} l. Arguments Fill {T} v n.
Definition op_data {T} (o : bop T) : list T :=
  match o with Data l => l | Fill v n => repeat v n end.

Fixpoint run_appends W {T} (dflt : T) (mem : list T) (off : Z) (ops : list (bop T)) :=
  match ops with
  | [] => Done (mem, off)
  | o :: ops =>
    match (match o with
           | Data l => append W dflt mem l off
           | Fill v n => append_a W dflt mem v off (Z.of_nat n)
           end) with
    | Done (m, off) => run_appends W dflt m off ops
    | r => r
    end
  end.

Fixpoint run_prepends W {T} (dflt : T) (mem : list T) (off : Z) (ops : list (bop T)) :=
  match ops with
  | [] => Done (mem, off)
  | o :: ops =>
    match (match o with
           | Data l => prepend W dflt mem l off
           | Fill v n => prepend_a W dflt mem v off (Z.of_nat n)
           end) with
    | Done (m, off) => run_prepends W dflt m off ops
    | r => r
    end
  end.

(* Starting with any content of length off: the buffer ends up holding the content
   followed by all data appended; if that does not fit into size_t, an exception is
   thrown and the buffer holds the data of the operations before the failing one. *)
Theorem buffer_append_history : forall W (T : Type) (dflt : T) (ops : list (bop T)) (mem content : list T),
  1 <= W -> len mem < 2 ^ W -> (forall o, In o ops -> len (op_data o) < 2 ^ W) ->
  (length content <= length mem)%nat -> firstn (length content) mem = content ->
  let all := content ++ concat (map op_data ops) in
  (len all < 2 ^ W -> exists m, run_appends W dflt mem (len content) ops = Done (m, len all) /\
     firstn (length all) m = all) /\
  (2 ^ W <= len all -> exists m ops1 o ops2,
     ops = ops1 ++ o :: ops2 /\
     let part := content ++ concat (map op_data ops1) in
     run_appends W dflt mem (len content) ops = Throw (m, len part) /\
     firstn (length part) m = part /\ 2 ^ W <= len part + len (op_data o)).
Proof.
  intros W T dflt ops. induction ops as [|o ops IH]; intros mem content HW Hm Hops Hc Hf all.
  - unfold all. cbn [map concat]. rewrite app_nil_r. split.
    + intros _. exists mem. split; [reflexivity|exact Hf].
    + pose proof (Nat2Z.inj_le (length content) (length mem)). lia.
  - assert (Ho : len (op_data o) < 2 ^ W) by (apply Hops; left; reflexivity).
    assert (E : (match o with
           | Data l => append W dflt mem l (len content)
           | Fill v n => append_a W dflt mem v (len content) (Z.of_nat n)
           end) = append W dflt mem (op_data o) (len content)).
    { destruct o; [reflexivity|]. cbn [op_data]. now apply append_a_eq. }
    cbn [run_appends]. rewrite E.
    destruct (buffer_append_exact W T dflt mem (op_data o) (length content) HW Hc Hm Ho) as [Hok Hthrow].
    destruct (Z_lt_le_dec (len content + len (op_data o)) (2 ^ W)) as [L|L].
    + destruct (Hok L) as (m & Ea & Hfm & Hl & H3 & H4). rewrite Ea.
      assert (Hlm : (length (content ++ op_data o) <= length m)%nat).
      { rewrite app_length. destruct (Nat.le_gt_cases (length content + length (op_data o)) (length mem)) as [A|A].
        - destruct (H3 A) as [-> _]. exact A.
        - destruct (H4 A). assumption. }
      replace (Z.of_nat (length content + length (op_data o))) with (len (content ++ op_data o))
        by (rewrite app_length; lia).
      destruct (IH m (content ++ op_data o) HW Hl) as [I1 I2].
      * intros o' Ho'. apply Hops. now right.
      * exact Hlm.
      * rewrite app_length. rewrite Hfm, Hf. reflexivity.
      * unfold all. cbn [map concat]. rewrite app_assoc. split; [exact I1|].
        intros Hbig. destruct (I2 Hbig) as (m' & ops1 & o' & ops2 & -> & H).
        exists m', (o :: ops1), o', ops2. split; [reflexivity|]. cbn [map concat].
        rewrite app_assoc. exact H.
    + rewrite (Hthrow L). split.
      * unfold all. cbn [map concat]. rewrite !app_length. lia.
      * intros _. exists mem, [], o, ops. split; [reflexivity|]. cbn [map concat].
        rewrite app_nil_r. split; [reflexivity|]. split; [exact Hf|exact L].
Qed.

Theorem buffer_prepend_history : forall W (T : Type) (dflt : T) (ops : list (bop T)) (mem content : list T),
  1 <= W -> len mem < 2 ^ W -> (forall o, In o ops -> len (op_data o) < 2 ^ W) ->
  (length content <= length mem)%nat -> skipn (length mem - length content) mem = content ->
  let all := concat (map op_data (rev ops)) ++ content in
  (len all < 2 ^ W -> exists m, run_prepends W dflt mem (len mem - len content) ops = Done (m, len m - len all) /\
     (length all <= length m)%nat /\ skipn (length m - length all) m = all) /\
  (2 ^ W <= len all -> exists m ops1 o ops2,
     ops = ops1 ++ o :: ops2 /\
     let part := concat (map op_data (rev ops1)) ++ content in
     run_prepends W dflt mem (len mem - len content) ops = Throw (m, len m - len part) /\
     skipn (length m - length part) m = part /\ 2 ^ W <= len part + len (op_data o)).
Proof.
  intros W T dflt ops. induction ops as [|o ops IH]; intros mem content HW Hm Hops Hc Hf all.
  - unfold all. cbn [rev map concat app]. split.
    + intros _. exists mem. split; [reflexivity|]. split; [exact Hc|exact Hf].
    + pose proof (Nat2Z.inj_le (length content) (length mem)). lia.
  - assert (Ho : len (op_data o) < 2 ^ W) by (apply Hops; left; reflexivity).
    assert (E : (match o with
           | Data l => prepend W dflt mem l (len mem - len content)
           | Fill v n => prepend_a W dflt mem v (len mem - len content) (Z.of_nat n)
           end) = prepend W dflt mem (op_data o) (len mem - len content)).
    { destruct o; [reflexivity|]. cbn [op_data]. apply prepend_a_eq. }
    assert (Hcc : forall l : list (bop T), concat (map op_data (rev (o :: l))) ++ content =
                 concat (map op_data (rev l)) ++ (op_data o ++ content)).
    { intros l. cbn [rev]. rewrite map_app, concat_app. cbn [map concat]. rewrite app_nil_r, app_assoc. reflexivity. }
    cbn [run_prepends]. rewrite E.
    destruct (buffer_prepend_exact W T dflt mem (op_data o) (length content) HW Hc Hm Ho) as [Hok Hthrow].
    destruct (Z_lt_le_dec (len content + len (op_data o)) (2 ^ W)) as [L|L].
    + destruct (Hok L) as (m & Ea & Hlm & Hfm & Hl & H3 & H4). rewrite Ea.
      replace (Z.of_nat (length content + length (op_data o))) with (len (op_data o ++ content))
        by (rewrite app_length; lia).
      destruct (IH m (op_data o ++ content) HW Hl) as [I1 I2].
      * intros o' Ho'. apply Hops. now right.
      * rewrite app_length. lia.
      * rewrite app_length. rewrite (Nat.add_comm (length (op_data o))). rewrite Hfm, Hf. reflexivity.
      * unfold all. rewrite Hcc. split; [exact I1|].
        intros Hbig. destruct (I2 Hbig) as (m' & ops1 & o' & ops2 & -> & H).
        exists m', (o :: ops1), o', ops2. split; [reflexivity|]. rewrite Hcc. exact H.
    + rewrite (Hthrow L). split.
      * unfold all. rewrite Hcc. rewrite !app_length. lia.
      * intros _. exists mem, [], o, ops. split; [reflexivity|]. cbn [rev map concat app].
        split; [reflexivity|]. split; [exact Hf|exact L].
Qed.

(* assign is an append at offset 0 (with the memory dropped when it has to grow) *)
Theorem buffer_assign_exact : forall W (T : Type) (dflt : T) (mem data : list T),
  1 <= W -> len mem < 2 ^ W -> len data < 2 ^ W ->
  exists m, assign W dflt mem data = Done m /\ firstn (length data) m = data /\
    (length mem <= length m)%nat.
Proof.
  intros W T dflt mem data HW Hm Hd. unfold assign, reserve, reserve_a, bsize.
  destruct (Z.leb_spec (len data) (len mem)).
  - rewrite copy_n_all by lia. eexists. split; [reflexivity|]. cbn [Z.to_nat firstn app].
    rewrite firstn_app, firstn_all, Nat.sub_diag. cbn [firstn]. rewrite app_nil_r.
    split; [reflexivity|]. rewrite app_length, skipn_length. lia.
  - unfold do_reserve, bsize. assert (Hs : size_max W = 2 ^ W - 1) by reflexivity.
    rewrite (usize_id W (size_max W - len data)) by lia.
    replace ((len data <=? size_max W) && (0 <=? size_max W - len data)) with true by lia.
    rewrite Z.add_0_r, usize_id by lia.
    destruct (suggest_spec W (len mem) (len data) (size_max W)) as (n & En & H1 & _); [lia..|].
    rewrite En. unfold copy_front.
    change 0 with (Z.of_nat 0) at 1 2 3. rewrite copy_n_front by lia. cbn [firstn skipn app].
    change (Z.of_nat 0) with 0. rewrite copy_n_all by (rewrite ?repeat_length; lia).
    eexists. split; [reflexivity|]. cbn [Z.to_nat firstn app].
    rewrite firstn_app, firstn_all, Nat.sub_diag. cbn [firstn]. rewrite app_nil_r.
    split; [reflexivity|]. rewrite app_length, skipn_length, repeat_length. lia.
Qed.

(* reserve with used_size = the content's length keeps the content and provides the room
   asked for; it throws exactly when the request exceeds max_size and leaves the buffer
   unchanged then *)
Theorem buffer_reserve_exact : forall W (T : Type) (dflt : T) (mem : list T) (mn mx : Z) (used : nat),
  1 <= W -> len mem < 2 ^ W -> 0 <= mn -> 0 <= mx < 2 ^ W -> (used <= length mem)%nat ->
  (mn <= len mem -> reserve W dflt mem tt mn (Z.of_nat used) mx = Done (mem, tt)) /\
  (len mem < mn <= mx -> exists m, reserve W dflt mem tt mn (Z.of_nat used) mx = Done (m, tt) /\
     mn <= len m <= mx /\ firstn used m = firstn used mem) /\
  (len mem < mn -> mx < mn -> reserve W dflt mem tt mn (Z.of_nat used) mx = Throw (mem, tt)).
Proof.
  intros W T dflt mem mn mx used HW Hm Hmn Hmx Hu. unfold reserve, reserve_a, bsize.
  split; [intros; now replace (mn <=? len mem) with true by lia|]. split.
  - intros H. replace (mn <=? len mem) with false by lia. unfold do_reserve, bsize.
    assert (Hs : size_max W = 2 ^ W - 1) by reflexivity.
    rewrite (usize_id W (mx - mn)) by lia.
    replace ((mn <=? mx) && (0 <=? mx - mn)) with true by lia.
    rewrite Z.add_0_r, usize_id by lia.
    destruct (suggest_spec W (len mem) mn mx) as (n & En & H1 & _); [lia..|].
    rewrite En. unfold copy_front. rewrite copy_n_front by (rewrite ?repeat_length; lia).
    eexists. split; [reflexivity|].
    rewrite app_length, firstn_length, skipn_length, repeat_length. split; [lia|].
    rewrite firstn_app, firstn_firstn, firstn_length. replace (used - _)%nat with 0%nat by lia.
    cbn [firstn]. rewrite app_nil_r. f_equal. lia.
  - intros H1 H2. replace (mn <=? len mem) with false by lia. unfold do_reserve.
    replace (mn <=? mx) with false by lia. reflexivity.
Qed.

Example buffer_ex :
  run_appends 64 0 [7; 7; 7] 0 [Data [1; 2]; Fill 5 2; Data [3]] = Done ([1; 2; 5; 5; 3; 0], 5).
Proof. reflexivity. Qed.
Example buffer_ex2 :
  run_prepends 64 0 [7; 7; 7] 3 [Data [1; 2]; Fill 5 2; Data [3]] = Done ([0; 3; 5; 5; 1; 2], 1) /\
  assign 64 0 [7; 7; 7] [1; 2; 3; 4] = Done [1; 2; 3; 4] /\
  reserve 64 0 [7; 8; 9] tt 4 2 100 = Done ([7; 8; 0; 0], tt) /\
  reserve 64 0 [7; 8; 9] tt 4 2 3 = Throw ([7; 8; 9], tt) /\
  (* a size_t of 3 bits: the eighth element does not fit *)
  run_appends 3 0 [] 0 [Data [1; 2; 3; 4; 5]; Data [6; 7]; Data [8]] = Throw ([1; 2; 3; 4; 5; 6; 7], 7).
Proof. vm_compute. auto 10. Qed.

Print Assumptions growth_policy.
Print Assumptions buffer_at_refuted.
Print Assumptions buffer_at_partial.
Print Assumptions buffer_append_exact.
Print Assumptions buffer_append_a_exact.
Print Assumptions buffer_prepend_exact.
Print Assumptions buffer_prepend_a_exact.
Print Assumptions buffer_append_history.
Print Assumptions buffer_prepend_history.
Print Assumptions buffer_assign_exact.
Print Assumptions buffer_reserve_exact.
