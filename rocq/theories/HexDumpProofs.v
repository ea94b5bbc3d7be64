(* Lemmas about the model of hex dumps. *)
From Coq Require Import ZArith Bool List Lia ZifyBool.
From Verif Require Import CInt IntModel IntProofs HexDumpModel HexDumpSpec ArrLib.
Import ListNotations.
Open Scope Z_scope.

Section Dump.
Context {C : Type} (widen : Z -> C) (W : Z) (f : Z -> list C) (format : Z -> option (list C)) (sep : list C).
Hypothesis HW : 16 <= W.
Hypothesis Hsep : len sep < 2 ^ W.

Definition good (data : list Z) := Forall (fun x => format x = Some (f x) /\ len (f x) < 2 ^ W) data.

Definition tail (ss : list (list C)) : list C := concat (map (fun s => sep ++ s) ss).

Lemma len_app (a b : list C) : len (a ++ b) = len a + len b.
Proof. unfold len. rewrite app_length. clear. lia. Qed.

Lemma len_nonneg (a : list C) : 0 <= len a.
Proof. unfold len. clear. lia. Qed.

Lemma join_tail s ss : join sep (s :: ss) = s ++ tail ss.
Proof.
  revert s. induction ss as [|t ss IH]; intros s; [cbn; now rewrite app_nil_r|].
  change (join sep (s :: t :: ss)) with (s ++ sep ++ join sep (t :: ss)). rewrite IH. unfold tail. cbn. now rewrite !app_assoc.
Qed.

Lemma unlimited_ok s data : good data -> unlimited_1 format sep s data = Some (join sep (s :: map f data)).
Proof.
  intros G. revert s. induction G as [|x data (E & _) G IH]; intros s; [reflexivity|].
  cbn [unlimited_1]. rewrite E. cbn [obind]. rewrite IH. cbn [obind]. cbn [map]. reflexivity.
Qed.

Lemma pow_W : 2 ^ 16 <= 2 ^ W.
Proof. apply Z.pow_le_mono_r; lia. Qed.

Lemma size_sub_ok a b : 0 <= b <= a -> a < 2 ^ W -> size_sub W a b = a - b.
Proof.
  intros. unfold size_sub, size_type. apply wrap_id; [|unfold in_range, imin, imax; cbn; lia].
  unfold ity_ok. cbn. lia.
Qed.

Lemma add_ok a b : 0 <= a < 2 ^ W -> 0 <= b < 2 ^ W ->
  exists r, try_int_add (size_type W) (size_type W) a b = Some (a + b <? 2 ^ W, r) /\ (a + b < 2 ^ W -> r = a + b).
Proof.
  intros Ha Hb. unfold try_int_add. cbn [isigned size_type negb].
  rewrite try_int_add_uu_spec; try reflexivity; try (unfold ity_ok; cbn; lia); try (unfold in_range, imin, imax; cbn; lia).
  unfold add_res. destruct (in_rangeb (size_type W) (a + b)) eqn:E.
  - exists (a + b). apply in_rangeb_spec in E. unfold in_range, imin, imax in E. cbn in E.
    split; [f_equal; f_equal; lia|auto].
  - exists a. apply in_rangeb_false in E. unfold in_range, imin, imax in E. cbn in E.
    split; [f_equal; f_equal; lia|lia].
Qed.

Lemma tail_cons s ss : len (tail (s :: ss)) = len sep + len s + len (tail ss).
Proof. clear Hsep HW. unfold tail. cbn [map concat]. rewrite !len_app. clear. lia. Qed.

Lemma look_ahead_ok data : good data -> forall size max_size, 0 <= size -> 0 <= max_size < 2 ^ W ->
  look_ahead W format sep size max_size data = Some (size + len (tail (map f data)) <=? max_size).
Proof.
  induction 1 as [|x data (E & L) G IH]; intros size max_size Hs Hm; cbn [look_ahead].
  - replace (len (tail (map f []))) with 0 by reflexivity.
    destruct (Z.gtb_spec size max_size); f_equal; lia.
  - cbn [map]. rewrite tail_cons. pose proof (len_nonneg (tail (map f data))). pose proof (len_nonneg (f x)).
    pose proof (len_nonneg sep).
    destruct (Z.gtb_spec size max_size); [f_equal; lia|]. rewrite E. cbn [obind].
    rewrite size_sub_ok by lia.
    destruct (add_ok (size_of sep) (size_of (f x)) ltac:(unfold size_of, len in *; lia) ltac:(unfold size_of, len in *; lia)) as (r & Er & Hr).
    change (size_of sep) with (len sep) in *. change (size_of (f x)) with (len (f x)) in *.
    rewrite Er. cbn [obind fst snd]. destruct (Z.ltb_spec (len sep + len (f x)) (2 ^ W)) as [Hl|Hl].
    + rewrite (Hr Hl). rewrite IH by lia. f_equal; lia.
    + f_equal; lia.
Qed.

(* what next writes *)
Definition tail_shown (m : Z) (strs : list (list C)) (out : list C) : Prop :=
  (len (tail strs) <= m /\ out = tail strs) \/
  (m < len (tail strs) /\ exists k, (k < length strs)%nat /\
     out = tail (firstn k strs) ++ ellipsis widen /\
     len (tail (firstn k strs)) <= m - 3 /\ m - 3 < len (tail (firstn (S k) strs))).

Lemma next_ok data : forall x m, good (x :: data) -> 3 <= m < 2 ^ W ->
  exists out, next widen W format sep m x data = Some out /\ tail_shown m (map f (x :: data)) out.
Proof.
  induction data as [|y data IH]; intros x m G Hm; inversion G as [|? ? (E & L) G2]; subst; clear G.
  all: pose proof (len_nonneg (f x)) as Nx; pose proof (len_nonneg sep) as Ns.
  all: cbn [next]; rewrite E; cbn [obind].
  all: destruct (add_ok (size_of sep) (size_of (f x)) ltac:(unfold size_of, len in *; lia) ltac:(unfold size_of, len in *; lia)) as (r & Er & Hr).
  all: change (size_of sep) with (len sep) in *; change (size_of (f x)) with (len (f x)) in *.
  all: rewrite Er; cbn [obind fst snd]; rewrite size_sub_ok by (unfold ellipsis_size; lia); unfold ellipsis_size.
  - unfold tail_shown. cbn [map]. rewrite tail_cons. change (len (tail [])) with 0.
    destruct (Z.ltb_spec (len sep + len (f x)) (2 ^ W)) as [Hl|Hl].
    + rewrite (Hr Hl). destruct (Z.leb_spec (len sep + len (f x)) (m - 3)).
      * eexists. split; [reflexivity|]. left. split; [lia|]. unfold tail. cbn. now rewrite app_nil_r.
      * rewrite look_ahead_ok by (try constructor; lia). cbn [obind map]. change (len (tail [])) with 0.
        destruct (Z.leb_spec (len sep + len (f x) + 0) m).
        -- eexists. split; [reflexivity|]. left. split; [lia|]. unfold tail. cbn. now rewrite app_nil_r.
        -- eexists. split; [reflexivity|]. right. split; [lia|]. exists O. cbn [firstn length]. rewrite tail_cons.
           change (len (tail [])) with 0. repeat split; try lia.
    + eexists. split; [reflexivity|]. right. split; [lia|]. exists O. cbn [firstn length]. rewrite tail_cons.
      change (len (tail [])) with 0. repeat split; try lia.
  - unfold tail_shown. cbn [map]. rewrite tail_cons. change (f y :: map f data) with (map f (y :: data)).
    pose proof (len_nonneg (tail (map f (y :: data)))) as Nt.
    assert (K0 : m < len sep + len (f x) + len (tail (map f (y :: data))) -> m - 3 < len sep + len (f x) ->
       exists k, (k < length (f x :: map f (y :: data)))%nat /\ ellipsis widen = tail (firstn k (f x :: map f (y :: data))) ++ ellipsis widen /\
         len (tail (firstn k (f x :: map f (y :: data)))) <= m - 3 /\ m - 3 < len (tail (firstn (S k) (f x :: map f (y :: data))))).
    { intros. exists O. cbn [firstn]. rewrite tail_cons. change (len (tail [])) with 0. repeat split; try lia. cbn; lia. }
    destruct (Z.ltb_spec (len sep + len (f x)) (2 ^ W)) as [Hl|Hl].
    + rewrite (Hr Hl). destruct (Z.leb_spec (len sep + len (f x)) (m - 3)).
      * rewrite size_sub_ok by lia. destruct (IH y (m - (len sep + len (f x))) G2 ltac:(lia)) as (out & Eo & Ho).
        rewrite Eo. cbn [obind]. eexists. split; [reflexivity|]. destruct Ho as [(H1 & H2)|(H1 & k & H2 & H3 & H4 & H5)].
        -- left. split; [lia|]. subst out. unfold tail. cbn. now rewrite !app_assoc.
        -- right. split; [lia|]. exists (S k). cbn [length] in *. split; [lia|].
           cbn [firstn]. rewrite !tail_cons. rewrite H3. split; [unfold tail; cbn; now rewrite !app_assoc|].
           change (match map f (y :: data) with [] => [] | a :: l => a :: firstn k l end) with (firstn (S k) (map f (y :: data))).
           split; lia.
      * rewrite look_ahead_ok by (try assumption; lia). cbn [obind].
        destruct (Z.leb_spec (len sep + len (f x) + len (tail (map f (y :: data)))) m).
        -- rewrite unlimited_ok by assumption. cbn [obind]. eexists. split; [reflexivity|]. left. split; [lia|].
           rewrite join_tail. unfold tail. cbn. now rewrite !app_assoc.
        -- eexists. split; [reflexivity|]. right. split; [lia|]. apply K0; lia.
    + eexists. split; [reflexivity|]. right. split; [lia|]. apply K0; lia.
Qed.

Lemma dump_elems_ok data ms : good data -> 0 <= ms < 2 ^ W ->
  exists out, dump_elems widen W format sep ms data = Some out /\
    if ms =? 2 ^ W - 1 then out = join sep (map f data)
    else shown sep (repeat (widen 46) 3) (Z.max ms 3) (map f data) out.
Proof.
  intros G Hms. pose proof pow_W. destruct data as [|x data].
  { exists []. split; [reflexivity|]. destruct (ms =? 2 ^ W - 1); [reflexivity|]. left. cbn. split; [lia|reflexivity]. }
  inversion G as [|? ? (E & L) G2]; subst. unfold dump_elems. rewrite E. cbn [obind].
  replace (wrap (size_type W) (-1)) with (2 ^ W - 1).
  2: { unfold wrap, size_type. cbn [isigned iwidth]. rewrite Z.mod_eq by lia.
       assert (-1 / 2 ^ W = -1); [|lia]. symmetry. apply Z.div_unique with (2 ^ W - 1); lia. }
  destruct (Z.eqb_spec ms (2 ^ W - 1)) as [->|Ne].
  { cbn [negb]. rewrite unlimited_ok by assumption. eauto. }
  cbn [negb]. unfold ellipsis_size. set (m := Z.max ms 3). assert (Hm : 3 <= m < 2 ^ W) by lia.
  change (size_of (f x)) with (len (f x)). pose proof (len_nonneg (f x)) as Nx. rewrite (size_sub_ok m 3) by lia.
  unfold shown. cbn [map]. change (len (repeat (widen 46) 3)) with 3. rewrite !join_tail. rewrite !len_app.
  pose proof (len_nonneg (tail (map f data))).
  destruct (Z.leb_spec (len (f x)) (m - 3)) as [Hl|Hl].
  - destruct data as [|y data].
    + exists (f x). split; [reflexivity|]. left. cbn. rewrite app_nil_r. split; [lia|reflexivity].
    + rewrite size_sub_ok by lia. destruct (next_ok data y (m - len (f x)) G2 ltac:(lia)) as (out & Eo & Ho).
      rewrite Eo. cbn [obind]. eexists. split; [reflexivity|].
      destruct Ho as [(H1 & H2)|(H1 & k & H2 & H3 & H4 & H5)].
      * left. split; [lia|]. now subst out.
      * right. split; [lia|]. exists (S k). cbn [length] in *. split; [lia|].
        change (firstn (S k) (f x :: map f (y :: data))) with (f x :: firstn k (map f (y :: data))).
        change (firstn (S (S k)) (f x :: map f (y :: data))) with (f x :: firstn (S k) (map f (y :: data))).
        rewrite !join_tail, !len_app. split; [rewrite H3; now rewrite app_assoc|]. lia.
  - rewrite look_ahead_ok by (try assumption; lia). cbn [obind].
    destruct (Z.leb_spec (len (f x) + len (tail (map f data))) m).
    + rewrite unlimited_ok by assumption. rewrite join_tail. eexists. split; [reflexivity|]. left. split; [lia|reflexivity].
    + eexists. split; [reflexivity|]. right. split; [lia|]. exists O. cbn [firstn length]. rewrite join_tail, len_app. change (tail []) with (@nil C).
      cbn [join app]. change (len (@nil C)) with 0. repeat split; lia.
Qed.

End Dump.
